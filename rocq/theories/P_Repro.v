(** The result of a session does not depend on how its threads are interleaved. *)
From Verif Require Import Base M_Data Spec M_Scoring M_Rng M_Critical M_Search M_Flow M_Climb M_Threads Spec_Climb Spec_Threads Spec_Repro P_Threads P_Session P_Climb6.

(** ** More turns do not change a result *)
Definition leads {A} (e e' : option A) : Prop := forall r, e = Some r -> e' = Some r.
Lemma leads_refl {A} (e : option A) : leads e e. Proof. intros r H; exact H. Qed.
Lemma leads_bind {A B} (e e' : option (outcome A)) (f f' : A -> option (outcome B)) :
  leads e e' -> (forall a, leads (f a) (f' a)) -> leads (bindo e f) (bindo e' f').
Proof. intros HE HF r. destruct e as [[a|m|]|]; cbn; intros H; try discriminate; rewrite (HE _ eq_refl); cbn; auto. apply HF; auto. Qed.
Ltac leads_step := first [apply leads_refl | apply leads_bind; [|intros ?] | match goal with |- leads (if ?b then _ else _) (if ?b then _ else _) => destruct b end
  | match goal with |- leads (let '(_, _) := ?x in _) _ => destruct x end ].

Section More.
Context (pr : profile) (d : input_data) (o : oracle).
Lemma fresh_more len taken : forall fuel fuel' t, fuel <= fuel' -> leads (fresh_index pr o len taken fuel t) (fresh_index pr o len taken fuel' t).
Proof.
  induction fuel as [|fuel IH]; intros fuel' t H; [intros r; discriminate|]. destruct fuel' as [|fuel']; [lia|]. cbn [fresh_index].
  repeat leads_step. apply IH. lia.
Qed.
Lemma grow_more len : forall fuel sw sw' idx t, sw <= sw' -> leads (grow_cycle pr o len sw fuel idx t) (grow_cycle pr o len sw' fuel idx t).
Proof.
  induction fuel as [|fuel IH]; intros sw sw' idx t H; [intros r; discriminate|]. cbn [grow_cycle]. repeat leads_step; [|apply IH; auto]. apply fresh_more; auto.
Qed.
Lemma swap_more sw sw' S t : sw <= sw' -> leads (swap_neighbor pr d o sw S t) (swap_neighbor pr d o sw' S t).
Proof. intros H. unfold swap_neighbor. apply leads_bind; [apply leads_refl|intros i]. apply leads_bind; [apply grow_more; auto|intros; apply leads_refl]. Qed.
Lemma add_more sw sw' S res t : sw <= sw' -> leads (add_swap pr d o sw S res t) (add_swap pr d o sw' S res t).
Proof. intros H. unfold add_swap. apply leads_bind; [apply swap_more; auto|intros; apply leads_refl]. Qed.
Lemma keys_more sw sw' max swaps S : sw <= sw' -> forall keys index res t,
  leads (key_neighbors pr d o sw max swaps S keys index res t) (key_neighbors pr d o sw' max swaps S keys index res t).
Proof.
  intros H. induction keys as [|k keys IH]; intros index res t; cbn [key_neighbors]; [apply leads_refl|].
  destruct (max <=? length res); [apply leads_refl|]. destruct (max * 32 <? index); [apply leads_refl|].
  apply leads_bind; [apply leads_refl|intros n]. apply leads_bind; [apply leads_refl|intros ok]. destruct (negb ok); [apply IH|].
  apply leads_bind; [|intros; apply IH]. destruct swaps; [apply add_more; auto|apply leads_refl].
Qed.
Lemma swaps_more sw sw' max S : sw <= sw' -> forall tries res t,
  leads (swap_neighbors pr d o sw max S tries res t) (swap_neighbors pr d o sw' max S tries res t).
Proof.
  intros H. induction tries as [|k IH]; intros res t; cbn [swap_neighbors]; [apply leads_refl|].
  destruct (max <=? length res); [apply leads_refl|]. apply leads_bind; [apply add_more; auto|intros; apply IH].
Qed.
Lemma pick_more sw sw' max S t : sw <= sw' -> leads (pick_neighbors pr d o sw max S t) (pick_neighbors pr d o sw' max S t).
Proof.
  intros H. unfold pick_neighbors. destruct (max <? n_cells d); (apply leads_bind; [apply keys_more; auto|intros [res t']]);
    match goal with |- leads (if ?b then _ else _) _ => destruct b end; first [apply leads_refl | apply swaps_more; auto].
Qed.
End More.

(** At least as many turns of every kind. *)
Definition turns_le (a b : turns) : Prop :=
  tn_search a <= tn_search b /\ tn_relax a <= tn_relax b /\ tn_swap a <= tn_swap b /\ tn_climb a <= tn_climb b.
Definition turns_max (a b : turns) : turns :=
  mkTurns (Nat.max (tn_search a) (tn_search b)) (Nat.max (tn_relax a) (tn_relax b)) (Nat.max (tn_swap a) (tn_swap b)) (Nat.max (tn_climb a) (tn_climb b)).
Lemma turns_max_l a b : turns_le a (turns_max a b). Proof. unfold turns_le, turns_max; cbn; lia. Qed.
Lemma turns_max_r a b : turns_le b (turns_max a b). Proof. unfold turns_le, turns_max; cbn; lia. Qed.

Section Iterations.
Context (pr : profile) (P : problem) (w : world).
Lemma climb_more dl sw sw' : sw <= sw' -> forall fuel fuel' b h ev, fuel <= fuel' -> leads (climb pr P w dl sw fuel b h ev) (climb pr P w dl sw' fuel' b h ev).
Proof.
  intros H. induction fuel as [|fuel IH]; intros fuel' b h ev Hf; [intros r; discriminate|]. destruct fuel' as [|fuel']; [lia|]. cbn [climb].
  destruct (dl && o_late (w_hill w) (hc_tick h)); [apply leads_refl|].
  apply leads_bind; [apply leads_refl|intros cur]. apply leads_bind; [apply pick_more; auto|intros nt]. apply leads_bind; [apply leads_refl|].
  intros [[[[all found] b'] h'] ev']. destruct (all && found); [apply IH; lia|apply leads_refl].
Qed.
Lemma hill_more dl tn tn' S h : turns_le tn tn' -> leads (hill_solve pr P w dl tn S h) (hill_solve pr P w dl tn' S h).
Proof.
  intros (H1 & H2 & H3 & H4). unfold hill_solve. apply leads_bind; [apply leads_refl|]. intros [[sol h1] e]. apply leads_bind; [apply leads_refl|]. intros sc.
  destruct (negb (score_finite sc)); [apply leads_refl|]. apply leads_bind; [apply climb_more; auto|]. intros [[b h2] ev]. apply leads_refl.
Qed.
Lemma iterate_more dl tn tn' : turns_le tn tn' -> forall n g, leads (iterate pr P w dl tn n g) (iterate pr P w dl tn' n g).
Proof.
  intros H. induction n as [|n IH]; intros g; cbn [iterate]; [apply leads_refl|].
  destruct (dl && w_late w (sg_tick g)); [apply leads_refl|]. destruct H as (H1 & H2 & H3 & H4).
  apply leads_bind. { intros r Hr. eapply next_more; eauto. } intros nx. destruct (nx_sched nx) as [cur|]; [|apply leads_refl].
  apply leads_bind; [apply hill_more; repeat split; auto|]. intros [[sol h] ev]. apply leads_bind; [apply leads_refl|]. intros sc.
  apply leads_bind; [apply IH|]. intros [[k g3] ev']. apply leads_refl.
Qed.
(** However the turns are counted, an iteration has one result. *)
Lemma iterate_det dl tn tn' n g r r' : iterate pr P w dl tn n g = Some r -> iterate pr P w dl tn' n g = Some r' -> r = r'.
Proof.
  intros H H'. apply (iterate_more dl tn _ (turns_max_l tn tn')) in H. apply (iterate_more dl tn' _ (turns_max_r tn tn')) in H'. congruence.
Qed.

(** The life of a worker by iterations: after [n] of them, the last with result
    [r], none of the earlier ones being the last. *)
Definition continues (r : option nat) (g : shotgun) : Prop :=
  match r with
  | None => True
  | Some k => p_any P && score_finite (b_score (sg_best g)) = false /\ (length (i_slots (p_input P)) =? 1) || (k <? 1) = false
  end.
Inductive path : nat -> option nat -> shotgun -> list event -> Prop :=
| path_new : path 0 None new_shotgun []
| path_next : forall n r g ev tn k g' ev', path n r g ev -> continues r g -> iterate pr P w true tn 1 g = Some (Ok (k, g', ev')) ->
    path (Datatypes.S n) (Some k) g' (ev ++ ev').
Lemma path_det n : forall r g ev r' g' ev', path n r g ev -> path n r' g' ev' -> r = r' /\ g = g' /\ ev = ev'.
Proof.
  induction n as [|n IH]; intros r g ev r' g' ev' H H'.
  - inversion H; inversion H'; subst; auto.
  - inversion H as [|n1 r1 g1 ev1 tn1 k1 g1' ev1' P1 C1 I1]; subst. inversion H' as [|n2 r2 g2 ev2 tn2 k2 g2' ev2' P2 C2 I2]; subst.
    destruct (IH _ _ _ _ _ _ P1 P2) as (E1 & E2 & E3). subst. pose proof (iterate_det _ _ _ _ _ _ _ I1 I2) as E. inversion E; subst. auto.
Qed.
Lemma path_before n m r g ev : path m r g ev -> n < m -> exists r' g' ev', path n r' g' ev' /\ continues r' g'.
Proof.
  revert r g ev. induction m as [|m IH]; intros r g ev H Hlt; [lia|]. inversion H; subst.
  destruct (Nat.eq_dec n m) as [->|Hne]; [eauto 6|]. eapply IH; eauto. lia.
Qed.
(** A worker in the middle of its life; [alone] if it ended by itself. *)
Definition stands (alone : bool) (n : nat) (wk : worker) : Prop :=
  exists r, path n r (wk_gun wk) (wk_events wk) /\
    match wk_pc wk with
    | WCheck | WIterate => continues r (wk_gun wk)
    | WAfter k => r = Some k
    | WDone => alone = true -> ~ continues r (wk_gun wk)
    | WCrashed => True
    end.
Lemma new_stands alone : stands alone 0 new_worker.
Proof. exists None. split; [constructor|exact I]. Qed.
Lemma wmove_stands alone n flag wk ls wk' : stands alone n wk -> (alone = true -> forall b, ls <> [LLoad b]) -> wmove pr P w flag wk ls wk' ->
  stands alone (n + if is_iteration ls then 1 else 0) wk'.
Proof.
  intros (r & HP & HC) HA H. destruct H; cbn [wk_gun wk_events wk_pc is_iteration] in *; rewrite ?Nat.add_0_r, ?Nat.add_1_r.
  - exists r. split; auto. cbn. intros E. exfalso. eapply HA; eauto.
  - exists r. split; auto.
  - exists (Some k). split; [econstructor; eauto|reflexivity].
  - exists r. split; auto. cbn. auto.
  - exists r. split; auto. cbn. intros _. subst r. unfold continues. intros [E _]. congruence.
  - exists r. split; auto. cbn. intros _. subst r. unfold continues. intros [_ E]. congruence.
  - exists r. split; auto. cbn [wk_pc]. subst r. split; auto.
Qed.
(** Two workers that ended by themselves have the same life. *)
Lemma stands_done n m wk wk' : stands true n wk -> stands true m wk' -> wk_pc wk = WDone -> wk_pc wk' = WDone -> n = m.
Proof.
  intros (r & HP & HC) (r' & HP' & HC') E E'. rewrite E in HC. rewrite E' in HC'. specialize (HC eq_refl). specialize (HC' eq_refl).
  destruct (Nat.lt_trichotomy n m) as [Hlt|[->|Hlt]]; auto; exfalso.
  - destruct (path_before n m _ _ _ HP' Hlt) as (r2 & g2 & ev2 & Hp & Hc). destruct (path_det _ _ _ _ _ _ _ HP Hp) as (E1 & E2 & E3). apply HC. rewrite E1, E2. auto.
  - destruct (path_before m n _ _ _ HP Hlt) as (r2 & g2 & ev2 & Hp & Hc). destruct (path_det _ _ _ _ _ _ _ HP' Hp) as (E1 & E2 & E3). apply HC'. rewrite E1, E2. auto.
Qed.
Lemma stands_same b b' n wk wk' : stands b n wk -> stands b' n wk' -> wk_gun wk = wk_gun wk' /\ wk_events wk = wk_events wk'.
Proof. intros (r & HP & _) (r' & HP' & _). destruct (path_det _ _ _ _ _ _ _ HP HP') as (_ & E1 & E2). auto. Qed.
End Iterations.

(** ** Sessions *)
Section Sessions.
Context (pr : profile) (P : problem) (ws : nat -> world).
Lemma moves_stand alone : forall tr s s', moves pr P ws s tr s' ->
  (alone = true -> forall i ls, In (Some i, ls) tr -> forall b, ls <> [LLoad b]) ->
  forall (n : nat -> nat), (forall i wk, nth_error (se_workers s) i = Some wk -> stands pr P (ws i) alone (n i) wk) ->
  forall i wk, nth_error (se_workers s') i = Some wk -> stands pr P (ws i) alone (n i + iterations_of i tr) wk.
Proof.
  intros tr s s' H. induction H as [s|s l s' tr s'' HM HMs IH]; intros HA n HN i wk Hwk.
  - unfold iterations_of. cbn. rewrite Nat.add_0_r. auto.
  - set (n' := fun i => n i + iterations_of i [l]).
    assert (HN' : forall i wk, nth_error (se_workers s') i = Some wk -> stands pr P (ws i) alone (n' i) wk).
    { clear IH HMs i wk Hwk. intros i wk Hwk. unfold n'. inversion HM; subst; cbn [se_workers] in Hwk.
      - unfold iterations_of. cbn [filter length fst snd]. destruct (Nat.eqb_spec i0 i) as [->|Hne].
        + rewrite nth_error_upd_same in Hwk by (apply nth_error_Some; congruence). injection Hwk as <-. cbn [andb].
          replace (length (if is_iteration ls then [(Some i, ls)] else [])) with (if is_iteration ls then 1 else 0) by (destruct (is_iteration ls); auto).
          eapply wmove_stands; eauto. intros E. apply (HA E i). left; auto.
        + cbn [andb length]. rewrite nth_error_upd_other in Hwk by auto. rewrite Nat.add_0_r. auto.
      - unfold iterations_of. cbn. rewrite Nat.add_0_r. auto. }
    replace (n i + iterations_of i (l :: tr)) with (n' i + iterations_of i tr).
    2:{ unfold n', iterations_of. cbn [filter]. destruct (_ && _); cbn [length]; lia. }
    apply IH; auto. intros E j ls Hj. apply (HA E j). right; auto.
Qed.
Lemma session_stands alone threads tr s : moves pr P ws (start P threads) tr s ->
  (alone = true -> forall i ls, In (Some i, ls) tr -> forall b, ls <> [LLoad b]) ->
  forall i wk, nth_error (se_workers s) i = Some wk -> stands pr P (ws i) alone (iterations_of i tr) wk.
Proof.
  intros H HA i wk Hwk. apply (moves_stand alone _ _ _ H HA (fun _ => 0)); auto.
  intros j w Hj. cbn in Hj. apply nth_error_In, repeat_spec in Hj. subst. apply new_stands.
Qed.
Lemma moves_length : forall tr s s', moves pr P ws s tr s' -> length (se_workers s') = length (se_workers s).
Proof. intros tr s s' H. induction H as [|s l s' tr s'' HM HMs IH]; auto. rewrite IH. inversion HM; subst; cbn; auto. apply upd_length. Qed.
(** Without cancellation from outside no worker is stopped by the flag, if there is
    only one worker or success does not set the flag. *)
Lemma unflagged_step s l s' : (p_any P = false \/ length (se_workers s) <= 1) -> fst l <> None ->
  (se_flag s = true -> forall wk, In wk (se_workers s) -> wk_pc wk = WDone) -> move pr P ws s l s' ->
  snd l <> [LLoad true] /\ (se_flag s' = true -> forall wk, In wk (se_workers s') -> wk_pc wk = WDone).
Proof.
  intros HA HN HJ HM. destruct HM as [s i wk ls wk' Hi HM|s]; [|cbn in HN; congruence]. cbn [fst snd se_flag se_workers] in *.
  assert (HFl : se_flag s = false).
  { destruct (se_flag s) eqn:E; auto. exfalso. pose proof (HJ eq_refl wk (nth_error_In _ _ Hi)) as Hd. destruct HM; cbn in Hd; discriminate. }
  split.
  - intros ->. inversion HM; subst. match goal with H : true = true -> _ |- _ => specialize (H eq_refl) end. congruence.
  - rewrite HFl. cbn [orb]. intros HE. destruct HM; cbn [existsb orb] in HE; try discriminate.
    destruct HA as [HA|HA]. { rewrite HA in *. cbn in *. discriminate. }
    assert (i = 0) by (assert (i < length (se_workers s)) by (apply nth_error_Some; congruence); lia). subst i.
    destruct (se_workers s) as [|a [|b t]] eqn:E; cbn in Hi, HA; try discriminate; [|lia]. cbn [upd]. intros wk [<-|[]]. reflexivity.
Qed.
Lemma unflagged tr s s' : moves pr P ws s tr s' -> (p_any P = false \/ length (se_workers s) <= 1) -> (forall l, In l tr -> fst l <> None) ->
  (se_flag s = true -> forall wk, In wk (se_workers s) -> wk_pc wk = WDone) -> forall l, In l tr -> snd l <> [LLoad true].
Proof.
  intros H. induction H as [s|s l s' tr s'' HM HMs IH]; intros HA HN HJ x Hx; [destruct Hx|].
  destruct (unflagged_step s l s' HA) as [H1 H2]; auto. { apply HN. left; auto. }
  destruct Hx as [<-|Hx]; auto. apply IH; auto.
  - destruct HA as [HA|HA]; auto. right. inversion HM; subst; cbn [se_workers]; rewrite ?upd_length; auto.
  - intros y Hy. apply HN. right; auto.
Qed.
End Sessions.
