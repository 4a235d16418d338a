(** Lookup and constraints in a run; what the reader hands over. *)
From Verif Require Import Base M_Data M_Names M_Build Spec Spec_Input P_Compile P_Resolve P_Input M_Script Spec_Script P_Script1 P_Names P_Script2 P_Script3.
From Coq Require Import String Ascii Sorted.
Notation length := Datatypes.length.
Notation get := Base.get.

Lemma named_unique tr hs : forall ns ms, named tr hs ns -> named tr hs ms -> ns = ms.
Proof.
  unfold named. induction hs as [|h t IH]; intros ns ms H1 H2; inversion H1; inversion H2; subst; auto.
  f_equal; eauto. eapply created_unique; eauto.
Qed.
Lemma named_nth tr hs : forall ns i h n, named tr hs ns -> nth_error hs i = Some h -> nth_error ns i = Some n -> created_as tr h n.
Proof.
  unfold named. induction hs as [|g t IH]; intros ns [|i] h n H Hh Hn; inversion H; subst; cbn in *; try discriminate.
  - injection Hh as ->. injection Hn as ->. auto.
  - eauto.
Qed.
Lemma named_length tr hs ns : named tr hs ns -> length hs = length ns.
Proof. unfold named. intros H. induction H; cbn; auto. Qed.
Lemma named_app tr e hs ns : named tr hs ns -> named (tr ++ [e]) hs ns.
Proof. unfold named. intros H. induction H; constructor; auto. apply created_app; auto. Qed.

Section K.
Context {A : Type} (nm : A -> string) (mk : nat -> handle) (isk : handle -> bool).
Hypothesis isk_mk : forall i, isk (mk i) = true.
Hypothesis mk_inj : forall i j, mk i = mk j -> i = j.

Lemma reg_named objs ids tr ns : kstr mk isk objs ids tr -> knam nm mk objs ids tr -> reg_names nm objs ids = Ok ns ->
  named tr (filter isk (additions tr)) ns.
Proof.
  intros K N H. destruct (names_ok nm mk isk mk_inj _ _ _ K) as (ns' & E & L & G). rewrite H in E. injection E as <-.
  rewrite <- (k_ids _ _ _ _ _ K). unfold named. assert (KN := k_name _ _ _ _ _ N). clear H K N.
  revert ns L G. induction ids as [|j t IH]; intros [|a l] L G; try discriminate; cbn [map]; constructor.
  - destruct (G 0 j eq_refl) as (ob & Ho & Ha). cbn in Ha. injection Ha as ->. auto.
  - apply IH; [cbn in L; lia|]. intros i id Hi. apply (G (Datatypes.S i) id Hi).
Qed.
Lemma find_lookup objs ids tr ns name l : kstr mk isk objs ids tr -> knam nm mk objs ids tr ->
  named tr (filter isk (additions tr)) ns -> best_match ns (levels name) l ->
  match l with
  | [] => find_registered nm objs ids name = Ok None
  | [i] => exists id, nth_error (filter isk (additions tr)) i = Some (mk id) /\ find_registered nm objs ids name = Ok (Some id)
  | _ => exists m, find_registered nm objs ids name = Err m
  end.
Proof.
  intros K N Hn Hb. destruct (find_cases nm mk isk mk_inj _ _ _ name K) as (ns' & E & G).
  assert (ns' = ns) by (eapply named_unique; eauto; eapply reg_named; eauto). subst ns'.
  assert (l = fuzzy_find name ns) by (eapply best_unique; eauto; apply fuzzy_best). subst l.
  destruct (find_registered nm objs ids name) as [[id|]|m|].
  - destruct G as (i & -> & Hi). exists id. split; auto. rewrite <- (k_ids _ _ _ _ _ K). apply map_nth_error; auto.
  - rewrite G. auto.
  - destruct (fuzzy_find name ns) as [|i [|j t]]; cbn in G; try lia. eauto.
  - destruct G.
Qed.
End K.

(** ** Constraints keep the names *)
Section Run.
Context {F : Type} (pr : profile) (pf : string -> option F).
Lemma spells_app tr e x a : spells tr x a -> spells (tr ++ [e]) x a.
Proof.
  destruct x; cbn; auto; intros (n & H & H'); exists n; split; auto; apply created_app; auto.
Qed.
Lemma spelled_app tr e c ex : spelled tr c ex -> spelled (tr ++ [e]) c ex.
Proof. destruct c as [[l r] rt]. cbn. intros (H1 & H2 & H3). repeat split; auto; apply spells_app; auto. Qed.
Lemma eval_spells st tr x a : ninv st tr -> eval_operand st x = Ok a -> spells tr x a.
Proof.
  intros [N1 N2 N3] H.
  destruct x; cbn [eval_operand spells] in *; try (injection H as <-; reflexivity);
    apply bind_ok in H as (n & Hn & H); unfold slot_name, choice_name, chooser_name in Hn;
    apply bind_ok in Hn as (ob & Hob & Hn); apply get_ok in Hob; injection Hn as <-;
    first [eapply (k_name _ _ _ _ _ N1) in Hob | eapply (k_name _ _ _ _ _ N2) in Hob | eapply (k_name _ _ _ _ _ N3) in Hob];
    try (injection H as <-; eauto).
  - apply bind_ok in H as (k & Hk & H). injection H as <-. unfold to_part in Hk. destruct (Z.leb_spec 0 part); [|discriminate].
    injection Hk as <-. eauto.
  - apply bind_ok in H as (k & Hk & H). injection H as <-. unfold to_part in Hk. destruct (Z.leb_spec 0 part); [|discriminate].
    injection Hk as <-. eauto.
Qed.
Lemma exprs_step (w : world F) x r w' : exec pr pf w x = (r, w') ->
  rs_exprs (w_state w') = rs_exprs (w_state w) /\ constrained (x, r) = [] \/
  exists l rl rt a b v, x = OpConstrain l rl rt /\ r = Ok v /\ eval_operand (w_state w) l = Ok a /\ eval_operand (w_state w) rt = Ok b /\
    rs_exprs (w_state w') = rs_exprs (w_state w) ++ [mkE a rl b].
Proof.
  intros H. destruct x as [n|n ts|n ps|h|h n|l rl rt|args]; cbn [exec] in H.
  - left. apply keep_ok in H as [(h & st & H & -> & ->)|[(m & H & -> & ->)|(H & -> & ->)]]; auto.
    unfold do_slot in H. apply bind_ok in H as ([id|] & _ & H); injection H as _ <-; auto.
  - left. apply keep_ok in H as [(h & st & H & -> & ->)|[(m & H & -> & ->)|(H & -> & ->)]]; auto.
    apply bind_ok in H as (tags & _ & H). unfold do_choice in H. apply bind_ok in H as ([id|] & _ & H); [injection H as _ <-; auto|].
    apply bind_ok in H as (p & _ & H). injection H as _ <-; auto.
  - left. apply keep_ok in H as [(h & st & H & -> & ->)|[(m & H & -> & ->)|(H & -> & ->)]]; auto.
    apply bind_ok in H as (prefs & _ & H). unfold do_chooser in H. apply bind_ok in H as ([id|] & _ & H); injection H as _ <-; auto.
  - left. apply keep_ok in H as [(g & st & H & -> & ->)|[(m & H & -> & ->)|(H & -> & ->)]]; auto.
    destruct h; cbn [do_add] in H; apply bind_ok in H as ([objs ids] & _ & H); injection H as _ <-; auto.
  - left. apply keep_ok in H as [(g & st & H & -> & ->)|[(m & H & -> & ->)|(H & -> & ->)]]; auto.
    destruct h; cbn [do_rename] in H; apply bind_ok in H as (objs & _ & H); injection H as _ <-; auto.
  - destruct (do_constrain _ _ _ _) as [st|m|] eqn:E; injection H as <- <-; auto.
    unfold do_constrain in E. apply bind_ok in E as (a & Ha & E). apply bind_ok in E as (b & Hb & E). injection E as <-.
    right. exists l, rl, rt, a, b, None. auto.
  - left. unfold set_arguments in H. destruct (all_strings args) as [ss|]; [destruct (arg_loop pr pf _ _)|];
      injection H as <- <-; auto.
Qed.
Lemma run_exprs o xs : forall tr w, exec_all pr pf (mkWorld rs_empty o) xs = (tr, w) -> proper_trace tr -> no_renames xs ->
  Forall2 (spelled tr) (constraints_of tr) (rs_exprs (w_state w)).
Proof.
  induction xs as [|x xs IH] using rev_ind; intros tr w H HP HN.
  - cbn in H. injection H as <- <-. constructor.
  - rewrite exec_all_app in H. destruct (exec_all pr pf _ xs) as [t1 w1] eqn:E1. cbn [exec_all] in H.
    destruct (exec pr pf w1 x) as [r w2] eqn:E. injection H as <- <-. apply proper_app in HP as [HP1 HP2].
    unfold no_renames in HN. rewrite forallb_app in HN. apply andb_true_iff in HN as [HN1 HN2].
    assert (G := IH _ _ eq_refl HP1 HN1).
    assert (G' : Forall2 (spelled (t1 ++ [(x, r)])) (constraints_of t1) (rs_exprs (w_state w1))).
    { clear - G. induction G; constructor; auto. apply spelled_app; auto. }
    unfold constraints_of. rewrite flat_map_app. cbn [flat_map]. rewrite app_nil_r. fold (constraints_of t1).
    apply exprs_step in E as [[-> ->]|(l & rl & rt & a & b & v & -> & -> & Ha & Hb & ->)].
    + rewrite app_nil_r. auto.
    + apply Forall2_app; auto. cbn [constrained]. constructor; [|constructor].
      assert (NI := run_ninv _ _ _ _ _ _ E1 HP1 HN1).
      cbn. repeat split; apply spells_app; eapply eval_spells; eauto.
Qed.

(** ** What the builder gets *)
Lemma reader_of o xs tr w : exec_all pr pf (mkWorld rs_empty o) xs = (tr, w) -> proper_trace tr ->
  exists r, to_reader (w_state w) = Ok r /\ r_exprs r = rs_exprs (w_state w) /\
    picked (rs_slots (w_state w)) (rs_slot_ids (w_state w)) = Ok (r_slots r) /\
    picked (rs_choices (w_state w)) (rs_choice_ids (w_state w)) = Ok (r_choices r) /\
    picked (rs_choosers (w_state w)) (rs_chooser_ids (w_state w)) = Ok (r_choosers r).
Proof.
  intros H HP. assert (I := run_sinv _ _ _ _ _ _ H HP). destruct I as [I1 I2 I3].
  destruct (picked_spec sl_name _ _ _ _ _ I1) as (l1 & E1 & _). destruct (picked_spec p_name _ _ _ _ _ I2) as (l2 & E2 & _).
  destruct (picked_spec cs_name _ _ _ _ _ I3) as (l3 & E3 & _).
  exists (mkReader l1 l2 l3 (rs_exprs (w_state w))). unfold to_reader. rewrite E1, E2, E3. auto.
Qed.
Lemma unused_false st tr : sinv st tr -> has_unused st = false -> incl (issued tr) (additions tr).
Proof.
  intros [I1 I2 I3] H h Hh. unfold has_unused in H. apply orb_false_iff in H as [H H3]. apply orb_false_iff in H as [H1 H2].
  assert (G : forall {A} mk isk objs ids (K : @kstr A mk isk objs ids tr) i, existsb (fun ob => negb (snd ob)) objs = false ->
     In (mk i) (issued tr) -> In (mk i) (additions tr)).
  { clear. intros A mk isk objs ids K i H Hi. apply (k_issued _ _ _ _ _ K) in Hi.
    destruct (nth_error objs i) as [ob|] eqn:E; [|apply nth_error_None in E; lia].
    assert (Hs : snd ob = true).
    { destruct (snd ob) eqn:Es; auto. assert (X : existsb (fun ob => negb (snd ob)) objs = true); [|congruence].
      apply existsb_exists. exists ob. split; [eapply nth_error_In; eauto|]. rewrite Es. auto. }
    apply (k_flag _ _ _ _ _ K _ _ E) in Hs. apply (in_map mk) in Hs. rewrite (k_ids _ _ _ _ _ K) in Hs.
    apply filter_In in Hs. tauto. }
  destruct h; [eapply (G _ _ _ _ _ I1)|eapply (G _ _ _ _ _ I2)|eapply (G _ _ _ _ _ I3)]; auto.
Qed.
Lemma read_script_ok o xs fail d o' : read_script pr pf o xs fail = (Ok d, o') ->
  exists tr w r, exec_all pr pf (mkWorld rs_empty o) xs = (tr, w) /\ existsb panicked tr = false /\ fail = None /\
    o' = w_opts w /\ to_reader (w_state w) = Ok r /\ has_unused (w_state w) = false /\ build_input pr r = Ok d /\
    r_choices r <> [] /\ r_choosers r <> [].
Proof.
  unfold read_script, read_with. cbn [w_opts]. destruct (exec_all pr pf _ xs) as [tr w] eqn:E.
  destruct (existsb panicked tr) eqn:Ep; [discriminate|].
  intros H. injection H as H <-. destruct fail; [discriminate|]. apply bind_ok in H as (r & Hr & H).
  unfold read_input in H. destruct (has_unused (w_state w)) eqn:Eu; [discriminate|].
  exists tr, w, r. destruct (r_choices r) eqn:Ec; [discriminate|]. destruct (r_choosers r) eqn:Ech; [discriminate|].
  repeat split; auto; discriminate.
Qed.
End Run.

(** ** Names in the result *)
Lemma built_names pr r d : build_input pr r = Ok d ->
  i_slots d = build_slots r /\ map cs_name (i_choosers d) = map cs_name (r_choosers r) /\
  length (i_choices d) = first_index (r_choices r) (length (r_choices r)) /\
  (forall i p, nth_error (r_choices r) i = Some p ->
     exists ch, nth_error (i_choices d) (first_index (r_choices r) i) = Some ch /\ ch_name ch = p_name p).
Proof.
  intros H. destruct (build_inv _ _ _ H) as (raw & cs & css & B).
  assert (L := b_choices_length _ _ _ _ _ _ B).
  split; [apply (bf_slots _ _ _ _ _ _ B)|]. split; [|split].
  - destruct (bf_choosers _ _ _ _ _ _ B) as (prefs & Hp & ->).
    assert (Lp : length prefs = length css).
    { unfold get_dependent_prefs in Hp. apply bind_ok in Hp as (gs & _ & Hp). apply bind_ok in Hp as (p0 & H0 & Hp).
      apply mmap_length in H0. rewrite <- H0.
      apply (mfold_inv (fun l : list (list N) => length l = length p0) _ _ _ _ eq_refl) in Hp; auto.
      intros b k b' _ Lb Hb. destruct (kind_eqb _ _); [|injection Hb as <-; auto].
      apply bind_ok in Hb as (o1 & _ & Hb). apply bind_ok in Hb as (row & _ & Hb). apply bind_ok in Hb as (row' & _ & Hb).
      apply set_ok in Hb as [_ ->]. rewrite upd_length. auto. }
    rewrite map_map. cbn [cs_name].
    transitivity (map cs_name css).
    + clear - Lp. revert prefs Lp. induction css as [|c t IH]; intros [|p ps] Lp; try discriminate; auto.
      cbn. f_equal. apply IH. cbn in Lp. lia.
    + rewrite (bf_css _ _ _ _ _ _ B), !map_map. apply map_ext. intros c. destruct c; reflexivity.
  - rewrite L. apply blocks_length.
  - intros i p Hi. assert (HB := blocks_nth (r_choices r) 0 i 0 p Hi ltac:(pose proof (copies_pos p); lia)).
    rewrite Nat.add_0_r in HB.
    destruct (nth_error (i_choices d) (first_index (r_choices r) i)) as [ch|] eqn:E.
    + exists ch. split; auto. destruct (bf_choices _ _ _ _ _ _ B) as (limits & Hl & Ec). rewrite Ec in E.
      rewrite nth_error_map in E. destruct (nth_error (combine _ _) _) as [[c l]|] eqn:Ecb; [|discriminate].
      apply combine_nth_error in Ecb as [Ecb _]. cbn in E. injection E as <-. rewrite HB in Ecb. injection Ecb as <-. reflexivity.
    + apply nth_error_None in E. rewrite L in E. assert (first_index (r_choices r) i < length (blocks 0 (r_choices r))); [|lia].
      apply nth_error_Some. congruence.
Qed.
