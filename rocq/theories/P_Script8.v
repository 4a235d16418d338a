(** Values stay in 32 bits; decidable checks for sample runs. *)
From Verif Require Import Base M_Data M_Names M_Rng M_Build Spec Spec_Input P_Compile P_Resolve P_Input P_Input2 M_Script Spec_Script P_Script1 P_Names P_Script2 P_Script3 P_Script4 P_Script5 P_Script6 P_Script7.
From Coq Require Import String Ascii Sorted.
Notation length := Datatypes.length.
Notation get := Base.get.

Definition small_proto (p : proto) : Prop := (p_min p <= u32_max /\ p_max p <= u32_max /\ p_parts p <= u32_max)%N.
Definition small_chooser (c : chooser_data) : Prop := Forall (fun n => (n <= u32_max)%N) (cs_prefs c).
Record uinv (st : rstate) : Prop := {
  u_choice : forall i ob, nth_error (rs_choices st) i = Some ob -> small_proto (fst ob);
  u_chooser : forall i ob, nth_error (rs_choosers st) i = Some ob -> small_chooser (fst ob)
}.
Lemma z_to_u32_le z n : z_to_u32 z = Ok n -> (n <= u32_max)%N.
Proof.
  unfold z_to_u32, u32_max. destruct ((0 <=? z)%Z && _) eqn:E; [|discriminate]. intros H; injection H as <-.
  apply andb_true_iff in E as [E1 E2]. apply Z.leb_le in E1, E2. lia.
Qed.
Lemma apply_tag_small p t q : small_proto p -> apply_tag p t = Ok q -> small_proto q.
Proof.
  unfold apply_tag, small_proto. intros (H1 & H2 & H3) H.
  destruct (t_tag t); apply bind_ok in H as (v & _ & H); [| | | |injection H as <-; cbn; auto];
    apply bind_ok in H as (n & Hn & H); apply z_to_u32_le in Hn;
    try (injection H as <-; cbn; auto; fail).
  apply bind_ok in H as (w & _ & H). apply bind_ok in H as (m & Hm & H). apply z_to_u32_le in Hm. injection H as <-. cbn. auto.
Qed.
Lemma new_choice_small n ts p : new_choice n ts = Ok p -> small_proto p.
Proof.
  unfold new_choice. intros H. eapply (mfold_inv small_proto) in H; auto.
  - unfold small_proto, u32_max. cbn. lia.
  - intros b k b' _ Hb Hk. eapply apply_tag_small; eauto.
Qed.
Lemma array_small a : forall ns, array_to_u32 a = Ok ns -> Forall (fun n => (n <= u32_max)%N) ns.
Proof.
  unfold array_to_u32. induction a as [|x a IH]; intros ns H; cbn [mmap] in H.
  - injection H as <-. constructor.
  - apply bind_ok in H as (n & Hn & H). apply bind_ok in H as (t & Ht & H). injection H as <-. constructor; auto.
    destruct x; [|eapply z_to_u32_le; eauto|discriminate].
    unfold parse_string_uint in Hn. destruct (parse_i64 s); [|discriminate]. eapply z_to_u32_le; eauto.
Qed.
Lemma rename_data {A} (f : A -> A) objs id objs' (P : A -> Prop) : rename f objs id = Ok objs' -> (forall a, P a -> P (f a)) ->
  (forall i ob, nth_error objs i = Some ob -> P (fst ob)) -> forall i ob, nth_error objs' i = Some ob -> P (fst ob).
Proof.
  intros H HP HO i ob Hi. unfold rename in H. apply bind_ok in H as (oj & Hj & H). apply get_ok in Hj. apply set_ok in H as [L ->].
  destruct (Nat.eq_dec i id) as [->|Hne].
  - rewrite nth_error_upd_same in Hi by auto. injection Hi as <-. cbn. eauto.
  - rewrite nth_error_upd_other in Hi by auto. eauto.
Qed.
Lemma app_data {A} (objs : list (A * bool)) a (P : A -> Prop) : P (fst a) ->
  (forall i ob, nth_error objs i = Some ob -> P (fst ob)) -> forall i ob, nth_error (objs ++ [a]) i = Some ob -> P (fst ob).
Proof.
  intros Ha HO i ob Hi. destruct (Nat.lt_ge_cases i (length objs)) as [Hl|Hl].
  - rewrite nth_error_app1 in Hi by auto. eauto.
  - rewrite nth_error_app2 in Hi by auto. destruct (i - length objs) as [|[|k]]; try discriminate. cbn in Hi. injection Hi as <-. auto.
Qed.
Section Run.
Context {F : Type} (pr : profile) (pf : string -> option F).
Lemma step_uinv (w : world F) x r w' : uinv (w_state w) -> exec pr pf w x = (r, w') -> uinv (w_state w').
Proof.
  intros [U1 U2] H. assert (U : uinv (w_state w)) by (split; auto).
  destruct x as [n|n ts|n ps|h|h n|l rl rt|args]; cbn [exec] in H.
  - apply keep_ok in H as [(h & st & H & -> & ->)|[(m & H & -> & ->)|(H & -> & ->)]]; auto. cbn [w_state].
    unfold do_slot in H. apply bind_ok in H as ([id|] & Hf & H); injection H as <- <-; auto. split; auto.
  - apply keep_ok in H as [(h & st & H & -> & ->)|[(m & H & -> & ->)|(H & -> & ->)]]; auto. cbn [w_state].
    apply bind_ok in H as (tags & Ht & H). unfold do_choice in H. apply bind_ok in H as ([id|] & Hf & H); [injection H as <- <-; auto|].
    apply bind_ok in H as (p & Hp & H). injection H as <- <-. split; auto. cbn [with_choices rs_choices].
    apply app_data; auto. eapply new_choice_small; eauto.
  - apply keep_ok in H as [(h & st & H & -> & ->)|[(m & H & -> & ->)|(H & -> & ->)]]; auto. cbn [w_state].
    apply bind_ok in H as (prefs & Ht & H). unfold do_chooser in H. apply bind_ok in H as ([id|] & Hf & H); injection H as <- <-; auto.
    split; auto. cbn [with_choosers rs_choosers]. apply app_data; auto. eapply array_small; eauto.
  - apply keep_ok in H as [(g & st & H & -> & ->)|[(m & H & -> & ->)|(H & -> & ->)]]; auto. cbn [w_state].
    destruct h as [id|id|id]; cbn [do_add] in H; apply bind_ok in H as ([objs ids] & Hr & H); injection H as <- <-;
      split; cbn [with_slots with_choices with_choosers rs_choices rs_choosers]; auto;
      intros i ob Hi; destruct (register_data _ _ _ _ _ _ Hr _ _ Hi) as (ob' & Hi' & <-); eauto.
  - apply keep_ok in H as [(g & st & H & -> & ->)|[(m & H & -> & ->)|(H & -> & ->)]]; auto. cbn [w_state].
    destruct h as [id|id|id]; cbn [do_rename] in H; apply bind_ok in H as (objs & Hr & H); injection H as <- <-;
      split; cbn [with_slots with_choices with_choosers rs_choices rs_choosers]; auto;
      eapply rename_data; eauto.
  - destruct (do_constrain _ _ _ _) as [st|m|] eqn:E; injection H as <- <-; auto.
    unfold do_constrain in E. apply bind_ok in E as (a & _ & E). apply bind_ok in E as (b & _ & E). injection E as <-. split; auto.
  - unfold set_arguments in H. destruct (all_strings args) as [ss|]; [destruct (arg_loop pr pf _ _)|];
      injection H as <- <-; auto.
Qed.
Lemma run_uinv o xs : forall tr w, exec_all pr pf (mkWorld rs_empty o) xs = (tr, w) -> uinv (w_state w).
Proof.
  induction xs as [|x xs IH] using rev_ind; intros tr w H.
  - cbn in H. injection H as <- <-. split; intros [|i] ob Hi; discriminate.
  - rewrite exec_all_app in H. destruct (exec_all pr pf _ xs) as [t1 w1] eqn:E1. cbn [exec_all] in H.
    destruct (exec pr pf w1 x) as [r w2] eqn:E. injection H as <- <-. eapply step_uinv; eauto.
Qed.
Lemma picked_in {A} (objs : list (A * bool)) ids l : picked objs ids = Ok l -> forall a, In a l -> exists i ob, nth_error objs i = Some ob /\ fst ob = a.
Proof.
  unfold picked. revert l. induction ids as [|j t IH]; intros l H a Ha; cbn [mmap] in H.
  - injection H as <-. destruct Ha.
  - apply bind_ok in H as (b & Hb & H). apply bind_ok in H as (t' & Ht & H). injection H as <-.
    apply bind_ok in Hb as (ob & Ho & Hb). apply get_ok in Ho. injection Hb as <-.
    destruct Ha as [<-|Ha]; eauto.
Qed.
Lemma run_reader_u32 o xs tr w r : exec_all pr pf (mkWorld rs_empty o) xs = (tr, w) -> to_reader (w_state w) = Ok r -> reader_u32 r.
Proof.
  intros H Hr. assert (U := run_uinv _ _ _ _ H). destruct U as [U1 U2]. unfold to_reader in Hr.
  apply bind_ok in Hr as (ss & H1 & Hr). apply bind_ok in Hr as (cs & H2 & Hr). apply bind_ok in Hr as (ps & H3 & Hr). injection Hr as <-.
  split; cbn.
  - intros p Hp. destruct (picked_in _ _ _ H2 _ Hp) as (i & ob & Hi & <-). apply U1 in Hi. exact Hi.
  - intros c x Hc Hx. destruct (picked_in _ _ _ H3 _ Hc) as (i & ob & Hi & <-). apply U2 in Hi. unfold small_chooser in Hi.
    rewrite Forall_forall in Hi. auto.
Qed.

(** A read panics only for integers, parts or (debug builds) times that are too large. *)
Lemma read_no_panic o xs fail tr w : exec_all pr pf (mkWorld rs_empty o) xs = (tr, w) -> proper_trace tr -> no_renames xs ->
  (forall l r z, In (l, r, OpInt z) (constraints_of tr) \/ In (OpInt z, r, l) (constraints_of tr) -> (z <= 4294967295)%Z) ->
  (forall ps, Forall2 (declared_choice tr) (filter is_choice (additions tr)) ps -> (Z.of_nat (first_index ps (length ps)) <= i32_max)%Z) ->
  (pr = Debug -> forall args, ~ In (OpArgs args, Panic) tr) ->
  fst (read_script pr pf o xs fail) <> Panic.
Proof.
  intros H HP HN HI HB HD. unfold read_script, read_with. cbn [w_opts]. rewrite H.
  destruct (existsb panicked tr) eqn:Ep.
  { exfalso. apply existsb_exists in Ep as ([x [| |]] & Hin & Hp); try discriminate.
    destruct (run_no_panic _ _ _ _ _ _ H HP _ Hin) as (args & -> & Hd). exact (HD Hd args Hin). }
  cbn [fst]. destruct fail; [discriminate|]. destruct (reader_of _ _ _ _ _ _ H HP) as (r & Hr & _). rewrite Hr. cbn [bind].
  assert (RF := run_reader _ _ _ _ _ _ _ H HP HN Hr).
  unfold read_input. destruct (has_unused _); [discriminate|]. destruct (r_choices r) eqn:E1; [discriminate|].
  destruct (r_choosers r) eqn:E2; [discriminate|].
  apply build_no_panic.
  - eapply run_reader_u32; eauto.
  - intros e He a n Ha Hk Hn. assert (X := rf_exprs _ _ RF).
    assert (G : exists c, In c (constraints_of tr) /\ spelled tr c e).
    { clear - X He. induction X; [destruct He|]. destruct He as [<-|He]; [eauto using in_eq|]. destruct (IHX He) as (c & Hc & Hs). eauto using in_cons. }
    destruct G as ([[lf rl] rt] & Hc & (Sl & _ & Sr)).
    assert (I : forall x b, spells tr x b -> a_kind b = AInteger -> exists z, x = OpInt z /\ a_name b = z_to_string z).
    { clear. intros x b. destruct x; cbn; intros Hs Hk; try (subst; eauto; fail);
        repeat match goal with H : _ /\ _ |- _ => destruct H | H : exists _, _ |- _ => destruct H end; subst; discriminate. }
    destruct Ha as [-> | ->].
    + destruct (I _ _ Sl Hk) as (z & -> & Ez). rewrite Ez in Hn. apply parse_usize_z in Hn. specialize (HI rt rl z (or_intror Hc)). unfold u32_max. lia.
    + destruct (I _ _ Sr Hk) as (z & -> & Ez). rewrite Ez in Hn. apply parse_usize_z in Hn. specialize (HI lf rl z (or_introl Hc)). unfold u32_max. lia.
  - apply HB. eapply rf_protos; eauto.
Qed.
End Run.

(** ** A check for sample runs *)
Fixpoint proper_b (seen : list handle) (tr : list event) : bool :=
  match tr with
  | [] => true
  | e :: t => forallb (fun h => existsb (handle_eqb h) seen) (uses (fst e)) && proper_b (seen ++ returned (snd e)) t
  end.
Lemma proper_b_gen tr : forall seen t0, proper_b seen tr = true -> seen = issued t0 -> forall t1 e t2, tr = t1 ++ e :: t2 -> incl (uses (fst e)) (issued (t0 ++ t1)).
Proof.
  induction tr as [|e0 tr IH]; intros seen t0 H Hs t1 e t2 E; [destruct t1; discriminate|].
  cbn [proper_b] in H. apply andb_true_iff in H as [H1 H2]. destruct t1 as [|e1 t1]; cbn in E.
  - injection E as -> ->. rewrite app_nil_r, <- Hs. intros h Hh. rewrite forallb_forall in H1. apply existsb_handle, H1. auto.
  - injection E as -> ->. replace (t0 ++ e1 :: t1) with ((t0 ++ [e1]) ++ t1) by (rewrite <- app_assoc; auto).
    eapply IH; eauto. rewrite issued_app, issued_one, Hs. auto.
Qed.
Lemma proper_b_ok tr : proper_b [] tr = true -> proper_trace tr.
Proof. intros H t1 e t2 E. apply (proper_b_gen tr [] [] H eq_refl t1 e t2 E). Qed.
