(** Declared data and the meaning of constraints between handles. *)
From Verif Require Import Base M_Data M_Names M_Build Spec Spec_Input P_Compile P_Resolve P_Input M_Script Spec_Script P_Script1 P_Names P_Script2 P_Script3 P_Script4 P_Script5.
From Coq Require Import String Ascii Sorted.
Notation length := Datatypes.length.
Notation get := Base.get.

Lemma created_by_app tr e h x : created_by tr h x -> created_by (tr ++ [e]) h x.
Proof. intros (t1 & t2 & -> & H). exists t1, (t2 ++ [e]). split; auto. rewrite <- app_assoc. auto. Qed.
Lemma created_by_new tr h x : ~ In h (issued tr) -> created_by (tr ++ [(x, Ok (Some h))]) h x.
Proof. intros H. exists tr, []. auto. Qed.

Lemma prefs_value a : forall ns, array_to_u32 a = Ok ns -> Forall2 pref_value a ns.
Proof.
  unfold array_to_u32. induction a as [|x a IH]; intros ns H; cbn [mmap] in H.
  - injection H as <-. constructor.
  - apply bind_ok in H as (n & Hn & H). apply bind_ok in H as (t & Ht & H). injection H as <-. constructor; auto.
    destruct x; cbn; [apply parse_uint_ok; auto|apply z_to_u32_ok; auto|discriminate].
Qed.
Lemma choice_declared n tags ts p : mmap eval_tag tags = Ok ts -> new_choice n ts = Ok p -> declares_choice (OpNewChoice n tags) p.
Proof.
  intros H1 H2. exists n, tags. split; auto. split; [eapply new_choice_name; eauto|]. intros Hs. eapply tags_literal; eauto.
Qed.

(** Every object carries the data of the call that created it. *)
Record dinv (st : rstate) (tr : list event) : Prop := {
  d_choice : forall i ob, nth_error (rs_choices st) i = Some ob -> declared_choice tr (HChoice i) (fst ob);
  d_chooser : forall i ob, nth_error (rs_choosers st) i = Some ob -> declared_chooser tr (HChooser i) (fst ob)
}.
Lemma dinv_quiet st tr e : dinv st tr -> dinv st (tr ++ [e]).
Proof. intros [D1 D2]. split; intros i ob H; [destruct (D1 _ _ H) as (x & H1 & H2)|destruct (D2 _ _ H) as (x & H1 & H2)];
  exists x; split; auto; apply created_by_app; auto. Qed.
Lemma register_data {A} (nm : A -> string) objs ids id objs' ids' : register nm objs ids id = Ok (objs', ids') ->
  forall i ob, nth_error objs' i = Some ob -> exists ob', nth_error objs i = Some ob' /\ fst ob' = fst ob.
Proof.
  intros H i ob Hi. unfold register in H. apply bind_ok in H as (oj & Hj & H). apply get_ok in Hj.
  apply bind_ok in H as (dup & _ & H). destruct dup; [discriminate|]. destruct (existsb _ _); [injection H as <- <-; eauto|].
  apply bind_ok in H as (o2 & Hs & H). injection H as <- <-. apply set_ok in Hs as [L ->].
  destruct (Nat.eq_dec i id) as [->|Hne].
  - rewrite nth_error_upd_same in Hi by auto. injection Hi as <-. eauto.
  - rewrite nth_error_upd_other in Hi by auto. eauto.
Qed.
Section Run.
Context {F : Type} (pr : profile) (pf : string -> option F).
Lemma step_dinv (w : world F) x r w' tr : sinv (w_state w) tr -> dinv (w_state w) tr -> exec pr pf w x = (r, w') ->
  is_rename x = false -> dinv (w_state w') (tr ++ [(x, r)]).
Proof.
  intros SI I H Hx. destruct x as [n|n ts|n ps|h|h n|l rl rt|args]; cbn [exec] in H; [| | | |discriminate| |].
  - apply keep_ok in H as [(h & st & H & -> & ->)|[(m & H & -> & ->)|(H & -> & ->)]]; cbn [w_state]; [|apply dinv_quiet; auto..].
    unfold do_slot in H. apply bind_ok in H as (found & Hf & H). destruct found as [id|]; injection H as <- <-; [apply dinv_quiet; auto|].
    assert (G : dinv (w_state w) (tr ++ [(OpNewSlot n, Ok (Some (HSlot (length (rs_slots (w_state w)))))) ])) by (apply dinv_quiet; auto).
    destruct G. split; auto.
  - apply keep_ok in H as [(h & st & H & -> & ->)|[(m & H & -> & ->)|(H & -> & ->)]]; cbn [w_state]; [|apply dinv_quiet; auto..].
    apply bind_ok in H as (tags & Ht & H).
    unfold do_choice in H. apply bind_ok in H as (found & Hf & H). destruct found as [id|]; [injection H as <- <-; apply dinv_quiet; auto|].
    apply bind_ok in H as (p & Hp & H). injection H as <- <-.
    set (h := HChoice (length (rs_choices (w_state w)))).
    assert (G : dinv (w_state w) (tr ++ [(OpNewChoice n ts, Ok (Some h)) ])) by (apply dinv_quiet; auto).
    destruct G as [G1 G2]. split; cbn [with_choices rs_choices rs_choosers]; auto.
    intros i ob Hi. destruct (Nat.lt_ge_cases i (length (rs_choices (w_state w)))) as [Hl|Hl].
    + rewrite nth_error_app1 in Hi by auto. auto.
    + assert (i < length (rs_choices (w_state w) ++ [(p, false)])) by (apply nth_error_Some; congruence).
      rewrite app_length in H. cbn in H. assert (i = length (rs_choices (w_state w))) by lia. subst i.
      rewrite nth_error_app2, Nat.sub_diag in Hi by auto. cbn in Hi. injection Hi as <-. cbn [fst].
      exists (OpNewChoice n ts). split; [|eapply choice_declared; eauto].
      apply created_by_new. intros Hin. destruct SI as [_ SI _]. apply (k_issued _ _ _ _ _ SI) in Hin. lia.
  - apply keep_ok in H as [(h & st & H & -> & ->)|[(m & H & -> & ->)|(H & -> & ->)]]; cbn [w_state]; [|apply dinv_quiet; auto..].
    apply bind_ok in H as (prefs & Ht & H).
    unfold do_chooser in H. apply bind_ok in H as (found & Hf & H). destruct found as [id|]; injection H as <- <-; [apply dinv_quiet; auto|].
    set (h := HChooser (length (rs_choosers (w_state w)))).
    assert (G : dinv (w_state w) (tr ++ [(OpNewChooser n ps, Ok (Some h)) ])) by (apply dinv_quiet; auto).
    destruct G as [G1 G2]. split; cbn [with_choosers rs_choices rs_choosers]; auto.
    intros i ob Hi. destruct (Nat.lt_ge_cases i (length (rs_choosers (w_state w)))) as [Hl|Hl].
    + rewrite nth_error_app1 in Hi by auto. auto.
    + assert (i < length (rs_choosers (w_state w) ++ [(mkChooser n prefs, false)])) by (apply nth_error_Some; congruence).
      rewrite app_length in H. cbn in H. assert (i = length (rs_choosers (w_state w))) by lia. subst i.
      rewrite nth_error_app2, Nat.sub_diag in Hi by auto. cbn in Hi. injection Hi as <-. cbn [fst].
      exists (OpNewChooser n ps). split.
      * apply created_by_new. intros Hin. destruct SI as [_ _ SI]. apply (k_issued _ _ _ _ _ SI) in Hin. lia.
      * exists n, ps. split; auto. split; auto. apply prefs_value; auto.
  - apply keep_ok in H as [(g & st & H & -> & ->)|[(m & H & -> & ->)|(H & -> & ->)]]; cbn [w_state]; [|apply dinv_quiet; auto..].
    assert (G : dinv (w_state w) (tr ++ [(OpAdd h, Ok (Some g)) ])) by (apply dinv_quiet; auto). destruct G as [G1 G2].
    destruct h as [id|id|id]; cbn [do_add] in H; apply bind_ok in H as ([objs ids] & Hr & H); injection H as <- <-;
      split; cbn [with_slots with_choices with_choosers rs_choices rs_choosers]; auto;
      intros i ob Hi; destruct (register_data _ _ _ _ _ _ Hr _ _ Hi) as (ob' & Hi' & <-); auto.
  - destruct (do_constrain _ _ _ _) as [st|m|] eqn:E; injection H as <- <-; cbn [w_state]; try (apply dinv_quiet; assumption).
    assert (G : dinv (w_state w) (tr ++ [(OpConstrain l rl rt, Ok None)])) by (apply dinv_quiet; auto).
    unfold do_constrain in E. apply bind_ok in E as (a & _ & E). apply bind_ok in E as (b & _ & E). injection E as <-.
    destruct G. split; auto.
  - unfold set_arguments in H. destruct (all_strings args) as [ss|]; [destruct (arg_loop pr pf _ _)|];
      injection H as <- <-; cbn [w_state]; apply dinv_quiet; auto.
Qed.
Lemma run_dinv o xs : forall tr w, exec_all pr pf (mkWorld rs_empty o) xs = (tr, w) -> proper_trace tr ->
  no_renames xs -> dinv (w_state w) tr.
Proof.
  induction xs as [|x xs IH] using rev_ind; intros tr w H HP HN.
  - cbn in H. injection H as <- <-. split; intros [|i] ob Hi; discriminate.
  - rewrite exec_all_app in H. destruct (exec_all pr pf _ xs) as [t1 w1] eqn:E1. cbn [exec_all] in H.
    destruct (exec pr pf w1 x) as [r w2] eqn:E. injection H as <- <-. apply proper_app in HP as [HP1 HP2].
    unfold no_renames in HN. rewrite forallb_app in HN. apply andb_true_iff in HN as [HN1 HN2]. cbn in HN2.
    eapply step_dinv; eauto; [eapply run_sinv; eauto|]. destruct (is_rename x); [discriminate|auto].
Qed.

(** ** The reader a run leaves *)
Record read_from (tr : list event) (r : reader) : Prop := {
  rf_slots : named tr (filter is_slot (additions tr)) (map sl_name (r_slots r)) /\ NoDup (map sl_name (r_slots r));
  rf_choices : named tr (filter is_choice (additions tr)) (map p_name (r_choices r)) /\ NoDup (map p_name (r_choices r));
  rf_choosers : named tr (filter is_chooser (additions tr)) (map cs_name (r_choosers r)) /\ NoDup (map cs_name (r_choosers r));
  rf_protos : Forall2 (declared_choice tr) (filter is_choice (additions tr)) (r_choices r);
  rf_persons : Forall2 (declared_chooser tr) (filter is_chooser (additions tr)) (r_choosers r);
  rf_exprs : Forall2 (spelled tr) (constraints_of tr) (r_exprs r)
}.
Lemma picked_data {A} (nm : A -> string) mk isk objs ids tr l (P : handle -> A -> Prop) : @kstr A mk isk objs ids tr ->
  (forall i ob, nth_error objs i = Some ob -> P (mk i) (fst ob)) ->
  picked objs ids = Ok l -> Forall2 P (filter isk (additions tr)) l.
Proof.
  intros K HP H. destruct (picked_spec nm _ _ _ _ _ K) as (l' & H' & L & G). rewrite H in H'. injection H' as <-.
  rewrite <- (k_ids _ _ _ _ _ K). clear H K.
  revert l L G. induction ids as [|j t IH]; intros [|a l] L G; try discriminate; cbn [map]; constructor.
  - destruct (G 0 j eq_refl) as (ob & Ho & Ha). cbn in Ha. injection Ha as ->. auto.
  - apply IH; [cbn in L; lia|]. intros i id Hi. apply (G (Datatypes.S i) id Hi).
Qed.
Lemma run_reader o xs tr w r : exec_all pr pf (mkWorld rs_empty o) xs = (tr, w) -> proper_trace tr -> no_renames xs ->
  to_reader (w_state w) = Ok r -> read_from tr r.
Proof.
  intros H HP HN Hr. destruct (reader_of _ _ _ _ _ _ H HP) as (r' & Hr' & He & P1 & P2 & P3).
  rewrite Hr in Hr'. injection Hr' as <-.
  assert (SI := run_sinv _ _ _ _ _ _ H HP). assert (NI := run_ninv _ _ _ _ _ _ H HP HN). assert (DI := run_dinv _ _ _ _ H HP HN).
  destruct SI as [S1 S2 S3], NI as [N1 N2 N3], DI as [D1 D2].
  split.
  - eapply picked_named; eauto.
  - eapply picked_named; eauto.
  - eapply picked_named; eauto.
  - eapply (picked_data p_name); eauto.
  - eapply (picked_data cs_name); eauto.
  - rewrite He. eapply run_exprs; eauto.
Qed.
End Run.

(** ** From names to handles *)
Section Handles.
Variables (tr : list event) (r : reader).
Hypothesis RF : read_from tr r.
Lemma handle_slot i n s : created_as tr (HSlot i) n -> slot_at tr i s ->
  exists sl, nth_error (r_slots r) s = Some sl /\ sl_name sl = n.
Proof.
  intros HC HS. destruct (rf_slots _ _ RF) as [HN _]. unfold slot_at in HS.
  destruct (nth_error (map sl_name (r_slots r)) s) as [m|] eqn:E.
  - assert (m = n) by (eapply created_unique; eauto; eapply named_nth; eauto). subst m.
    rewrite nth_error_map in E. destruct (nth_error (r_slots r) s) as [sl|]; [|discriminate]. cbn in E. injection E as E. eauto.
  - apply nth_error_None in E. rewrite <- (named_length _ _ _ HN) in E. assert (s < length (filter is_slot (additions tr))); [|lia].
    apply nth_error_Some. congruence.
Qed.
Lemma handle_chooser i n s : created_as tr (HChooser i) n -> chooser_at tr i s ->
  exists sl, nth_error (r_choosers r) s = Some sl /\ cs_name sl = n.
Proof.
  intros HC HS. destruct (rf_choosers _ _ RF) as [HN _]. unfold chooser_at in HS.
  destruct (nth_error (map cs_name (r_choosers r)) s) as [m|] eqn:E.
  - assert (m = n) by (eapply created_unique; eauto; eapply named_nth; eauto). subst m.
    rewrite nth_error_map in E. destruct (nth_error (r_choosers r) s) as [sl|]; [|discriminate]. cbn in E. injection E as E. eauto.
  - apply nth_error_None in E. rewrite <- (named_length _ _ _ HN) in E. assert (s < length (filter is_chooser (additions tr))); [|lia].
    apply nth_error_Some. congruence.
Qed.
Lemma handle_choice i n k c sub : created_as tr (HChoice i) n -> choice_at tr (r_choices r) i k c ->
  the_choice r (mkA AChoice sub n k) c.
Proof.
  intros HC (pos & HS & HP). destruct (rf_choices _ _ RF) as [HN _].
  destruct HP as (p & Hp & Hk & Hc). exists pos, p. split; auto. split; [|exists p; auto].
  cbn. eapply created_unique; [|exact HC]. eapply named_nth; eauto. apply map_nth_error; auto.
Qed.
Lemma handle_slot_acc i n s sub : created_as tr (HSlot i) n -> slot_at tr i s -> the_slot r (mkA ASlot sub n 0) s.
Proof. intros H1 H2. exact (handle_slot _ _ _ H1 H2). Qed.
Lemma handle_chooser_acc i n s sub : created_as tr (HChooser i) n -> chooser_at tr i s -> the_chooser r (mkA AChooser sub n 0) s.
Proof. intros H1 H2. exact (handle_chooser _ _ _ H1 H2). Qed.
Lemma spells_slot_of x i k a : spells tr x a -> slot_of x i k -> exists n, created_as tr (HChoice i) n /\ a = mkA AChoice ASlot n k.
Proof.
  intros H [[-> ->]| ->]; cbn in H; [auto|]. destruct H as (n & H1 & _ & H2). rewrite Nat2Z.id in H2. eauto.
Qed.
Lemma spells_choosers_of x i k a : spells tr x a -> choosers_of x i k -> exists n, created_as tr (HChoice i) n /\ a = mkA AChoice AChooser n k.
Proof.
  intros H [[-> ->]| ->]; cbn in H; [auto|]. destruct H as (n & H1 & _ & H2). rewrite Nat2Z.id in H2. eauto.
Qed.
Lemma says_means_direct strict S A l rel rt la ra : spells tr l la -> spells tr rt ra ->
  says_direct strict r S A la rel ra -> means_direct tr (r_choices r) strict S A l rel rt.
Proof.
  intros HL HR HS. unfold means_direct. repeat match goal with |- _ /\ _ => split end.
  - intros i k j c s H1 -> HC HT. destruct (spells_slot_of _ _ _ _ HL H1) as (n & Hn & ->).
    cbn in HR. destruct HR as (m & Hm & ->).
    split; intros ->; cbn in HS; apply HS; first [eapply handle_choice; eassumption | eapply handle_slot_acc; eassumption].
  - intros i k j m c c' s H1 H2 HC HC'. destruct (spells_slot_of _ _ _ _ HL H1) as (n & Hn & ->).
    destruct (spells_slot_of _ _ _ _ HR H2) as (n' & Hn' & ->).
    split; intros ->; cbn in HS; apply HS; eapply handle_choice; eassumption.
  - intros i j s c -> -> HC HT. cbn in HL, HR. destruct HL as (n & Hn & ->), HR as (m & Hm & ->).
    split; intros ->; cbn in HS; apply HS; first [eapply handle_choice; eassumption | eapply handle_slot_acc; eassumption].
  - intros i j s s' c -> -> HC HT ->. cbn in HL, HR. destruct HL as (n & Hn & ->), HR as (m & Hm & ->).
    cbn in HS. apply HS; eapply handle_slot_acc; eassumption.
  - intros i k j m c c' p H1 H2 HC HC' HH ->. destruct (spells_choosers_of _ _ _ _ HL H1) as (n & Hn & ->).
    destruct (spells_choosers_of _ _ _ _ HR H2) as (n' & Hn' & ->).
    cbn in HS. apply HS; [eapply handle_choice; eassumption..|assumption].
  - intros i j p c -> -> HC HT. cbn in HL, HR. destruct HL as (n & Hn & ->), HR as (m & Hm & ->).
    split; intros ->; cbn in HS; [intros HH|]; apply HS; try assumption;
      first [eapply handle_choice; eassumption | eapply handle_chooser_acc; eassumption].
  - intros i j p p' c -> -> HC HT ->. cbn in HL, HR. destruct HL as (n & Hn & ->), HR as (m & Hm & ->).
    cbn in HS. apply HS; eapply handle_chooser_acc; eassumption.
  - intros i k j p c H1 -> HC HT. destruct (spells_choosers_of _ _ _ _ HL H1) as (n & Hn & ->).
    cbn in HR. destruct HR as (m & Hm & ->).
    split; intros ->; cbn in HS; [intros HH|]; apply HS; try assumption;
      first [eapply handle_choice; eassumption | eapply handle_chooser_acc; eassumption].
  - intros i z s m -> -> HC HT. cbn in HL, HR. destruct HL as (n & Hn & ->). subst ra.
    unfold says_direct in HS; cbn [a_kind a_sub] in HS. eapply HS; [eapply handle_slot_acc; eassumption|reflexivity|exact HT].
Qed.
Lemma says_means strict S A c e : spelled tr c e -> says strict r S A e -> means tr (r_choices r) strict S A c.
Proof.
  destruct c as [[l rel] rt]. intros (HL & HR & HT) [H1 H2]. unfold means. rewrite HR in *. split.
  - eapply says_means_direct; eauto.
  - destruct rel; auto; eapply says_means_direct; eauto.
Qed.
End Handles.

(** ** Everything about a successful read *)
Lemma Forall2_in_l {A B} (P : A -> B -> Prop) l m a : Forall2 P l m -> In a l -> exists b, In b m /\ P a b.
Proof. induction 1; intros []; subst; [eauto using in_eq|]. destruct (IHForall2 H1) as (b & Hb & HP). eauto using in_cons. Qed.
