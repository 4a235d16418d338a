(** Whole runs of a script. *)
From Verif Require Import Base M_Data M_Names M_Build P_Resolve M_Script Spec_Script P_Script1 P_Names P_Script2.
From Coq Require Import String Ascii Sorted.
Notation length := Datatypes.length.
Notation get := Base.get.

Lemma slot_inv h : is_slot h = true -> exists i, h = HSlot i. Proof. destruct h; try discriminate; eauto. Qed.
Lemma choice_inv h : is_choice h = true -> exists i, h = HChoice i. Proof. destruct h; try discriminate; eauto. Qed.
Lemma chooser_inv h : is_chooser h = true -> exists i, h = HChooser i. Proof. destruct h; try discriminate; eauto. Qed.
Lemma slot_inj i j : HSlot i = HSlot j -> i = j. Proof. congruence. Qed.
Lemma choice_inj i j : HChoice i = HChoice j -> i = j. Proof. congruence. Qed.
Lemma chooser_inj i j : HChooser i = HChooser j -> i = j. Proof. congruence. Qed.

Local Hint Resolve slot_inj choice_inj chooser_inj : core.

Record sinv (st : rstate) (tr : list event) : Prop := {
  s_slots : kstr HSlot is_slot (rs_slots st) (rs_slot_ids st) tr;
  s_choices : kstr HChoice is_choice (rs_choices st) (rs_choice_ids st) tr;
  s_choosers : kstr HChooser is_chooser (rs_choosers st) (rs_chooser_ids st) tr
}.
Record ninv (st : rstate) (tr : list event) : Prop := {
  n_slots : knam sl_name HSlot (rs_slots st) (rs_slot_ids st) tr;
  n_choices : knam p_name HChoice (rs_choices st) (rs_choice_ids st) tr;
  n_choosers : knam cs_name HChooser (rs_choosers st) (rs_chooser_ids st) tr
}.
Lemma sinv_nil : sinv rs_empty []. Proof. split; apply kstr_nil. Qed.
Lemma ninv_nil : ninv rs_empty []. Proof. split; apply knam_nil. Qed.

Lemma quiet_silent isk tr x r : returned r = [] -> (forall v, r <> Ok v) -> quiet isk tr (x, r).
Proof.
  intros H1 H2. split; cbn.
  - rewrite H1. intros h [].
  - intros h H. exfalso. destruct x, r; cbn in H; auto; eapply H2; eauto.
Qed.
Lemma quiet_none isk tr x r : returned r = [] -> added (x, r) = [] -> quiet isk tr (x, r).
Proof. intros H1 H2. split; cbn [snd]; [rewrite H1|rewrite H2]; intros h []. Qed.
Lemma quiet_known isk tr x h : In h (issued tr) -> added (x, Ok (Some h)) = [] -> quiet isk tr (x, Ok (Some h)).
Proof. intros H1 H2. split; cbn [snd returned]; [|rewrite H2]; intros g []; subst; auto. contradiction. Qed.
Lemma quiet_other isk tr x h : isk h = false -> (forall g, In g (added (x, Ok (Some h))) -> isk g = false) ->
  quiet isk tr (x, Ok (Some h)).
Proof.
  intros H1 H2. split; cbn [snd returned].
  - intros g [<- |[]]. congruence.
  - intros g Hg Hk. apply H2 in Hg. congruence.
Qed.
Lemma sinv_quiet st tr e : sinv st tr -> quiet is_slot tr e -> quiet is_choice tr e -> quiet is_chooser tr e -> sinv st (tr ++ [e]).
Proof. intros [H1 H2 H3] Q1 Q2 Q3. split; apply kstr_quiet; auto. Qed.
Lemma ninv_quiet st tr e : ninv st tr -> ninv st (tr ++ [e]).
Proof. intros [H1 H2 H3]. split; apply knam_quiet; auto. Qed.
Lemma sinv_err st tr x r : sinv st tr -> returned r = [] -> (forall v, r <> Ok v) -> sinv st (tr ++ [(x, r)]).
Proof. intros H H1 H2. apply sinv_quiet; auto; apply quiet_silent; auto. Qed.

Lemma uses_known st tr h : sinv st tr -> In h (issued tr) ->
  match h with HSlot i => i < length (rs_slots st) | HChoice i => i < length (rs_choices st) | HChooser i => i < length (rs_choosers st) end.
Proof. intros [H1 H2 H3] H. destruct h; eapply k_issued in H; eauto. Qed.

Section Step.
Context {F : Type} (pr : profile) (pf : string -> option F).
Implicit Types (w : world F).

Lemma keep_ok {X} w (r : outcome (X * rstate)) q w' : keep w r = (q, w') ->
  (exists h st, r = Ok (h, st) /\ q = Ok (Some h) /\ w' = mkWorld st (w_opts w)) \/
  (exists m, r = Err m /\ q = Err m /\ w' = w) \/ (r = Panic /\ q = Panic /\ w' = w).
Proof.
  destruct r as [[h st]|m|]; cbn; intros H; injection H as <- <-; eauto 10.
Qed.

Lemma new_choice_name n tags p : new_choice n tags = Ok p -> p_name p = n.
Proof.
  unfold new_choice. assert (G : forall ts p0 p, mfold apply_tag ts p0 = Ok p -> p_name p = p_name p0).
  { clear. induction ts as [|t ts IH]; intros p0 p H; cbn [mfold] in H; [injection H as <-; auto|].
    apply bind_ok in H as (q & Hq & H). apply IH in H. rewrite H. clear -Hq.
    unfold apply_tag in Hq. destruct (t_tag t);
      repeat (apply bind_ok in Hq as (? & _ & Hq)); injection Hq as <-; auto. }
  intros H. apply G in H. auto.
Qed.

Lemma step_sinv w x r w' tr : sinv (w_state w) tr -> exec pr pf w x = (r, w') ->
  incl (uses x) (issued tr) -> sinv (w_state w') (tr ++ [(x, r)]).
Proof.
  intros I H Hu. destruct x as [n|n ts|n ps|h|h n|l rl rt|args]; cbn [exec] in H.
  - apply keep_ok in H as [(h & st & H & -> & ->)|[(m & H & -> & ->)|(H & -> & ->)]]; cbn [w_state];
      [|apply sinv_err; auto; discriminate|apply sinv_err; auto; discriminate].
    unfold do_slot in H. apply bind_ok in H as (found & Hf & H). destruct found as [id|]; injection H as <- <-.
    + assert (X := find_issued sl_name HSlot is_slot slot_inj _ _ _ _ _ (s_slots _ _ I) Hf). apply sinv_quiet; auto; apply quiet_known; auto.
    + destruct I as [I1 I2 I3]. split; cbn [with_slots rs_slots rs_choices rs_choosers rs_slot_ids rs_choice_ids rs_chooser_ids].
      * apply kstr_create; auto.
      * apply kstr_quiet; auto. apply quiet_other; auto. intros g [].
      * apply kstr_quiet; auto. apply quiet_other; auto. intros g [].
  - apply keep_ok in H as [(h & st & H & -> & ->)|[(m & H & -> & ->)|(H & -> & ->)]]; cbn [w_state];
      [|apply sinv_err; auto; discriminate|apply sinv_err; auto; discriminate].
    apply bind_ok in H as (tags & _ & H).
    unfold do_choice in H. apply bind_ok in H as (found & Hf & H). destruct found as [id|].
    + injection H as <- <-.
      assert (X := find_issued p_name HChoice is_choice choice_inj _ _ _ _ _ (s_choices _ _ I) Hf). apply sinv_quiet; auto; apply quiet_known; auto.
    + apply bind_ok in H as (p & Hp & H). injection H as <- <-.
      destruct I as [I1 I2 I3]. split; cbn [with_choices rs_slots rs_choices rs_choosers rs_slot_ids rs_choice_ids rs_chooser_ids].
      * apply kstr_quiet; auto. apply quiet_other; auto. intros g [].
      * apply kstr_create; auto.
      * apply kstr_quiet; auto. apply quiet_other; auto. intros g [].
  - apply keep_ok in H as [(h & st & H & -> & ->)|[(m & H & -> & ->)|(H & -> & ->)]]; cbn [w_state];
      [|apply sinv_err; auto; discriminate|apply sinv_err; auto; discriminate].
    apply bind_ok in H as (prefs & _ & H).
    unfold do_chooser in H. apply bind_ok in H as (found & Hf & H). destruct found as [id|]; injection H as <- <-.
    + assert (X := find_issued cs_name HChooser is_chooser chooser_inj _ _ _ _ _ (s_choosers _ _ I) Hf). apply sinv_quiet; auto; apply quiet_known; auto.
    + destruct I as [I1 I2 I3]. split; cbn [with_choosers rs_slots rs_choices rs_choosers rs_slot_ids rs_choice_ids rs_chooser_ids].
      * apply kstr_quiet; auto. apply quiet_other; auto. intros g [].
      * apply kstr_quiet; auto. apply quiet_other; auto. intros g [].
      * apply kstr_create; auto.
  - apply keep_ok in H as [(g & st & H & -> & ->)|[(m & H & -> & ->)|(H & -> & ->)]]; cbn [w_state];
      [|apply sinv_err; auto; discriminate|apply sinv_err; auto; discriminate].
    destruct h as [id|id|id]; cbn [do_add] in H; apply bind_ok in H as ([objs ids] & Hr & H); injection H as <- <-;
      destruct I as [I1 I2 I3];
      (split; cbn [with_slots with_choices with_choosers rs_slots rs_choices rs_choosers rs_slot_ids rs_choice_ids rs_chooser_ids];
       try (apply kstr_quiet; auto; apply quiet_other; auto; cbn; intros g [<- |[]]; reflexivity)).
    + eapply kstr_register; eauto.
    + eapply kstr_register; eauto.
    + eapply kstr_register; eauto.
  - apply keep_ok in H as [(g & st & H & -> & ->)|[(m & H & -> & ->)|(H & -> & ->)]]; cbn [w_state];
      [|apply sinv_err; auto; discriminate|apply sinv_err; auto; discriminate].
    destruct h as [id|id|id]; cbn [do_rename] in H; apply bind_ok in H as (objs & Hr & H); injection H as <- <-;
      destruct I as [I1 I2 I3];
      (split; cbn [with_slots with_choices with_choosers rs_slots rs_choices rs_choosers rs_slot_ids rs_choice_ids rs_chooser_ids];
       try (apply kstr_quiet; auto; apply quiet_other; auto; cbn; intros g []));
      eapply kstr_rename; eauto.
  - destruct (do_constrain _ _ _ _) as [st|m|] eqn:E; injection H as <- <-; cbn [w_state];
      try (apply sinv_err; auto; discriminate).
    assert (G : sinv (w_state w) (tr ++ [(OpConstrain l rl rt, Ok None)])).
    { apply sinv_quiet; auto; apply quiet_none; auto. }
    unfold do_constrain in E. apply bind_ok in E as (a & _ & E). apply bind_ok in E as (b & _ & E). injection E as <-.
    destruct G as [G1 G2 G3]. split; auto.
  - unfold set_arguments in H. destruct (all_strings args) as [ss|]; [destruct (arg_loop pr pf _ _)|];
      injection H as <- <-; cbn [w_state]; try (apply sinv_err; auto; discriminate).
    apply sinv_quiet; auto; apply quiet_none; auto.
Qed.

Lemma step_ninv w x r w' tr : sinv (w_state w) tr -> ninv (w_state w) tr -> exec pr pf w x = (r, w') ->
  is_rename x = false -> ninv (w_state w') (tr ++ [(x, r)]).
Proof.
  intros S I H Hx. destruct x as [n|n ts|n ps|h|h n|l rl rt|args]; cbn [exec] in H; [| | | |discriminate| |].
  - apply keep_ok in H as [(h & st & H & -> & ->)|[(m & H & -> & ->)|(H & -> & ->)]]; cbn [w_state]; [|apply ninv_quiet; auto..].
    unfold do_slot in H. apply bind_ok in H as (found & Hf & H). destruct found as [id|]; injection H as <- <-; [apply ninv_quiet; auto|].
    destruct I as [I1 I2 I3]. split; cbn [with_slots rs_slots rs_choices rs_choosers rs_slot_ids rs_choice_ids rs_chooser_ids]; [|apply knam_quiet; auto..].
    eapply knam_create; eauto; apply S.
  - apply keep_ok in H as [(h & st & H & -> & ->)|[(m & H & -> & ->)|(H & -> & ->)]]; cbn [w_state]; [|apply ninv_quiet; auto..].
    apply bind_ok in H as (tags & _ & H).
    unfold do_choice in H. apply bind_ok in H as (found & Hf & H). destruct found as [id|]; [injection H as <- <-; apply ninv_quiet; auto|].
    apply bind_ok in H as (p & Hp & H). injection H as <- <-. apply new_choice_name in Hp.
    destruct I as [I1 I2 I3]. split; cbn [with_choices rs_slots rs_choices rs_choosers rs_slot_ids rs_choice_ids rs_chooser_ids];
      [apply knam_quiet; auto| |apply knam_quiet; auto].
    eapply knam_create; eauto; [apply S|cbn; congruence].
  - apply keep_ok in H as [(h & st & H & -> & ->)|[(m & H & -> & ->)|(H & -> & ->)]]; cbn [w_state]; [|apply ninv_quiet; auto..].
    apply bind_ok in H as (prefs & _ & H).
    unfold do_chooser in H. apply bind_ok in H as (found & Hf & H). destruct found as [id|]; injection H as <- <-; [apply ninv_quiet; auto|].
    destruct I as [I1 I2 I3]. split; cbn [with_choosers rs_slots rs_choices rs_choosers rs_slot_ids rs_choice_ids rs_chooser_ids];
      [apply knam_quiet; auto..|].
    eapply knam_create; eauto; apply S.
  - apply keep_ok in H as [(g & st & H & -> & ->)|[(m & H & -> & ->)|(H & -> & ->)]]; cbn [w_state]; [|apply ninv_quiet; auto..].
    destruct h as [id|id|id]; cbn [do_add] in H; apply bind_ok in H as ([objs ids] & Hr & H); injection H as <- <-;
      destruct I as [I1 I2 I3];
      (split; cbn [with_slots with_choices with_choosers rs_slots rs_choices rs_choosers rs_slot_ids rs_choice_ids rs_chooser_ids];
       first [apply knam_quiet; assumption | eapply knam_register; eauto]).
  - destruct (do_constrain _ _ _ _) as [st|m|] eqn:E; injection H as <- <-; cbn [w_state]; try (apply ninv_quiet; assumption).
    assert (G : ninv (w_state w) (tr ++ [(OpConstrain l rl rt, Ok None)])) by (apply ninv_quiet; auto).
    unfold do_constrain in E. apply bind_ok in E as (a & _ & E). apply bind_ok in E as (b & _ & E). injection E as <-.
    destruct G as [G1 G2 G3]. split; auto.
  - unfold set_arguments in H. destruct (all_strings args) as [ss|]; [destruct (arg_loop pr pf _ _)|];
      injection H as <- <-; cbn [w_state]; apply ninv_quiet; auto.
Qed.

(** ** No call panics, except through an overflowing time *)
Lemma mmap_np {X Y} (f : X -> outcome Y) l : (forall x, f x <> Panic) -> mmap f l <> Panic.
Proof.
  intros Hf. induction l as [|x t IH]; cbn; [discriminate|].
  destruct (f x) eqn:E; cbn; try discriminate; [|exfalso; eapply Hf; eauto].
  destruct (mmap f t); cbn; try discriminate. congruence.
Qed.
Lemma z_to_u32_np z : z_to_u32 z <> Panic. Proof. unfold z_to_u32. destruct (_ && _); discriminate. Qed.
Lemma u32_to_i32_np z : u32_to_i32 z <> Panic. Proof. unfold u32_to_i32. destruct (_ <=? _)%Z; discriminate. Qed.
Lemma parse_string_uint_np s : parse_string_uint s <> Panic.
Proof. unfold parse_string_uint. destruct (parse_i64 s); [apply z_to_u32_np|discriminate]. Qed.
Definition tag_ok (t : tagged) : Prop := match t_tag t with TBounds => length (t_vals t) = 2 | _ => length (t_vals t) = 1 end.
Lemma bind_np {X Y} (a : outcome X) (f : X -> outcome Y) : a <> Panic -> (forall x, a = Ok x -> f x <> Panic) -> bind a f <> Panic.
Proof. destruct a; cbn; auto; congruence. Qed.
Lemma eval_tag_ok a : eval_tag a <> Panic /\ forall t, eval_tag a = Ok t -> tag_ok t.
Proof.
  destruct a as [t v|t s|lo hi|lo hi|b]; cbn [eval_tag]; (split; [|intros u H]).
  - discriminate.
  - injection H as <-. destruct t; reflexivity.
  - unfold tag_str. apply bind_np; [apply parse_string_uint_np|]. intros n _. apply bind_np; [apply u32_to_i32_np|]. discriminate.
  - unfold tag_str in H. apply bind_ok in H as (n & _ & H). apply bind_ok in H as (z & _ & H). injection H as <-. destruct t; reflexivity.
  - discriminate.
  - injection H as <-. reflexivity.
  - unfold bounds_str. repeat (apply bind_np; [apply parse_string_uint_np || apply u32_to_i32_np|intros ? _]). discriminate.
  - unfold bounds_str in H. repeat (apply bind_ok in H as (? & _ & H)). injection H as <-. reflexivity.
  - discriminate.
  - injection H as <-. reflexivity.
Qed.
Lemma apply_tag_np p t : tag_ok t -> apply_tag p t <> Panic.
Proof.
  unfold tag_ok, apply_tag. destruct t as [tg vs]; cbn [t_tag t_vals].
  destruct tg; intros H; (destruct vs as [|a [|b [|]]]; try discriminate); cbn [get nth_error bind];
    repeat (apply bind_np; [apply z_to_u32_np|intros ? _]); try discriminate.
Qed.
Lemma new_choice_np n tags : Forall tag_ok tags -> new_choice n tags <> Panic.
Proof.
  unfold new_choice. generalize (mkProto n 1 1 1 false). intros p H. revert p.
  induction H as [|t ts Ht Hts IH]; intros p; cbn [mfold]; [discriminate|].
  apply bind_np; [apply apply_tag_np; auto|]. auto.
Qed.
Lemma find_np {A} (nm : A -> string) mk isk objs ids tr name (Hmk : forall i j : nat, mk i = mk j -> i = j) : @kstr A mk isk objs ids tr -> find_registered nm objs ids name <> Panic.
Proof. intros K. destruct (find_cases nm mk isk Hmk objs ids tr name K) as (ns & _ & H). destruct (find_registered _ _ _ _); congruence. Qed.
Lemma get_np {X} (l : list X) i : i < length l -> get l i <> Panic.
Proof. intros H. unfold get. destruct (nth_error l i) eqn:E; [discriminate|]. apply nth_error_None in E. lia. Qed.
Lemma rename_np {A} (f : A -> A) objs id : id < length objs -> rename f objs id <> Panic.
Proof.
  intros H. unfold rename. apply bind_np; [apply get_np; auto|]. intros ob _. unfold set.
  destruct (Nat.ltb_spec id (length objs)); [discriminate|lia].
Qed.
Lemma eval_operand_np st tr x : sinv st tr -> incl (operand_handles x) (issued tr) -> eval_operand st x <> Panic.
Proof.
  intros I Hu. assert (G : forall h, In h (operand_handles x) -> In h (issued tr)) by exact Hu.
  destruct x as [i|i|i|i|i|i p|i|i p|i|i|z]; cbn [eval_operand operand_handles] in *; try discriminate;
    (assert (L := uses_known _ _ _ I (G _ (or_introl eq_refl))); cbn in L);
    (apply bind_np; [unfold slot_name, choice_name, chooser_name; apply bind_np; [apply get_np; auto|discriminate]|]);
    intros n _; try discriminate;
    (apply bind_np; [unfold to_part; destruct (_ <=? _)%Z; discriminate|discriminate]).
Qed.

Lemma time_loop_np s : forall t c, time_loop Release t c s <> Panic.
Proof.
  induction s as [|ch s IH]; intros t c; cbn [time_loop]; [discriminate|].
  destruct (digit_val ch); [destruct (push_digit _ _); [auto|discriminate]|].
  destruct (is_lower ch); [|discriminate]. destruct (unit_seconds ch); [|discriminate].
  apply bind_np; [unfold M_Rng.i32_wrap; destruct (_ && _); discriminate|]. intros x _.
  apply bind_np; [unfold M_Rng.i32_wrap; destruct (_ && _); discriminate|]. auto.
Qed.
Lemma arg_loop_np n : forall args (o : settings F), length args <= n -> arg_loop Release pf o args <> Panic.
Proof.
  induction n as [|n IH]; intros [|a rest] o Hn; cbn [Datatypes.length] in Hn; try lia; try discriminate.
  cbn [arg_loop].
  repeat match goal with
  | |- (if ?b then _ else _) <> Panic => destruct b
  | |- (match ?r with [] => _ | _ :: _ => _ end) <> Panic => destruct r
  | |- (match ?r with Some _ => _ | None => _ end) <> Panic => destruct r
  | |- bind (parse_time _ _) _ <> Panic => apply bind_np; [apply time_loop_np|intros ? _]
  | |- Err _ <> Panic => discriminate
  | |- arg_loop _ _ _ _ <> Panic => apply IH; cbn [Datatypes.length] in Hn; lia
  end.
Qed.

Lemma step_no_panic w x r w' tr : sinv (w_state w) tr -> exec pr pf w x = (r, w') ->
  incl (uses x) (issued tr) -> r = Panic -> exists args, x = OpArgs args /\ pr = Debug.
Proof.
  intros I H Hu ->. destruct x as [n|n ts|n ps|h|h n|l rl rt|args]; cbn [exec] in H.
  - exfalso. apply keep_ok in H as [(? & ? & _ & ? & _)|[(? & _ & ? & _)|(H & _)]]; try discriminate. revert H.
    unfold do_slot. apply bind_np; [eapply find_np; [|apply I]; auto|]. intros [id|] _; discriminate.
  - exfalso. apply keep_ok in H as [(? & ? & _ & ? & _)|[(? & _ & ? & _)|(H & _)]]; try discriminate. revert H.
    apply bind_np; [apply mmap_np; intros x; apply eval_tag_ok|]. intros tags Ht.
    unfold do_choice. apply bind_np; [eapply find_np; [|apply I]; auto|]. intros [id|] _; [discriminate|].
    apply bind_np; [|discriminate]. apply new_choice_np. apply Forall_forall. intros t Hin.
    clear -Ht Hin. revert tags Ht Hin. induction ts as [|a ts IH]; intros tags Ht Hin; cbn [mmap] in Ht.
    + injection Ht as <-. destruct Hin.
    + apply bind_ok in Ht as (b & Hb & Ht). apply bind_ok in Ht as (bs & Hbs & Ht). injection Ht as <-.
      destruct Hin as [<- |Hin]; [eapply eval_tag_ok; eauto|eapply IH; eauto].
  - exfalso. apply keep_ok in H as [(? & ? & _ & ? & _)|[(? & _ & ? & _)|(H & _)]]; try discriminate. revert H.
    apply bind_np.
    { apply mmap_np. intros [s|z|]; [apply parse_string_uint_np|apply z_to_u32_np|discriminate]. }
    intros prefs _. unfold do_chooser. apply bind_np; [eapply find_np; [|apply I]; auto|]. intros [id|] _; discriminate.
  - exfalso. apply keep_ok in H as [(? & ? & _ & ? & _)|[(? & _ & ? & _)|(H & _)]]; try discriminate. revert H.
    assert (L := uses_known _ _ _ I (Hu _ (or_introl eq_refl))).
    destruct h as [id|id|id]; cbn [do_add] in *; (apply bind_np; [eapply register_no_panic; eauto; apply I|]); intros [objs ids] _; discriminate.
  - exfalso. apply keep_ok in H as [(? & ? & _ & ? & _)|[(? & _ & ? & _)|(H & _)]]; try discriminate. revert H.
    assert (L := uses_known _ _ _ I (Hu _ (or_introl eq_refl))).
    destruct h as [id|id|id]; cbn [do_rename] in *; (apply bind_np; [apply rename_np; auto|]); discriminate.
  - exfalso. destruct (do_constrain _ _ _ _) eqn:E; try discriminate. revert E. cbn [uses] in Hu.
    unfold do_constrain. apply bind_np; [eapply eval_operand_np; eauto; intros h Hh; apply Hu; apply in_or_app; auto|].
    intros a _. apply bind_np; [eapply eval_operand_np; eauto; intros h Hh; apply Hu; apply in_or_app; auto|]. discriminate.
  - exists args. split; auto. unfold set_arguments in H. destruct (all_strings args) as [ss|]; [|discriminate].
    destruct (arg_loop pr pf _ _) eqn:E; try discriminate.
    destruct pr eqn:Epr; auto. exfalso. revert E. apply (arg_loop_np (length ss)); auto.
Qed.

(** ** Runs *)
Lemma exec_all_app xs : forall w ys, exec_all pr pf w (xs ++ ys) =
  let (t1, w1) := exec_all pr pf w xs in let (t2, w2) := exec_all pr pf w1 ys in (t1 ++ t2, w2).
Proof.
  induction xs as [|x t IH]; intros w ys; cbn [exec_all List.app].
  - destruct (exec_all pr pf w ys); auto.
  - destruct (exec pr pf w x) as [r w'] eqn:E. rewrite IH.
    destruct (exec_all pr pf w' t) as [t1 w1]. destruct (exec_all pr pf w1 ys) as [t2 w2]. auto.
Qed.
Lemma exec_all_ops xs : forall w tr w', exec_all pr pf w xs = (tr, w') -> map fst tr = xs.
Proof.
  induction xs as [|x t IH]; intros w tr w' H; cbn [exec_all] in H.
  - injection H as <- <-. auto.
  - destruct (exec pr pf w x) as [r w1] eqn:E. destruct (exec_all pr pf w1 t) as [t1 w2] eqn:E2.
    injection H as <- <-. cbn. f_equal. eauto.
Qed.
Lemma proper_app t e : proper_trace (t ++ [e]) -> proper_trace t /\ incl (uses (fst e)) (issued t).
Proof.
  intros H. split.
  - intros t1 x t2 ->. apply (H t1 x (t2 ++ [e])). rewrite <- app_assoc. auto.
  - apply (H t e []). auto.
Qed.
Lemma run_sinv o xs : forall tr w, exec_all pr pf (mkWorld rs_empty o) xs = (tr, w) -> proper_trace tr -> sinv (w_state w) tr.
Proof.
  induction xs as [|x xs IH] using rev_ind; intros tr w H HP.
  - cbn in H. injection H as <- <-. apply sinv_nil.
  - rewrite exec_all_app in H. destruct (exec_all pr pf _ xs) as [t1 w1]. cbn [exec_all] in H.
    destruct (exec pr pf w1 x) as [r w2] eqn:E. injection H as <- <-. apply proper_app in HP as [HP1 HP2].
    eapply step_sinv; eauto.
Qed.
Lemma run_ninv o xs : forall tr w, exec_all pr pf (mkWorld rs_empty o) xs = (tr, w) -> proper_trace tr ->
  no_renames xs -> ninv (w_state w) tr.
Proof.
  induction xs as [|x xs IH] using rev_ind; intros tr w H HP HN.
  - cbn in H. injection H as <- <-. apply ninv_nil.
  - rewrite exec_all_app in H. destruct (exec_all pr pf _ xs) as [t1 w1] eqn:E1. cbn [exec_all] in H.
    destruct (exec pr pf w1 x) as [r w2] eqn:E. injection H as <- <-. apply proper_app in HP as [HP1 HP2].
    unfold no_renames in HN. rewrite forallb_app in HN. apply andb_true_iff in HN as [HN1 HN2]. cbn in HN2.
    eapply step_ninv; eauto; [eapply run_sinv; eauto|]. destruct (is_rename x); [discriminate|auto].
Qed.
Lemma run_no_panic o xs : forall tr w, exec_all pr pf (mkWorld rs_empty o) xs = (tr, w) -> proper_trace tr ->
  forall x, In (x, Panic) tr -> exists args, x = OpArgs args /\ pr = Debug.
Proof.
  induction xs as [|y xs IH] using rev_ind; intros tr w H HP x Hx.
  - cbn in H. injection H as <- <-. destruct Hx.
  - rewrite exec_all_app in H. destruct (exec_all pr pf _ xs) as [t1 w1] eqn:E1. cbn [exec_all] in H.
    destruct (exec pr pf w1 y) as [r w2] eqn:E. injection H as <- <-. apply proper_app in HP as [HP1 HP2].
    apply in_app_or in Hx as [Hx|[Hx|[]]]; [eapply IH; eauto|].
    injection Hx as -> ->. eapply step_no_panic; eauto. eapply run_sinv; eauto.
Qed.

(** ** What is read in the end *)
Lemma picked_spec {A} (nm : A -> string) mk isk objs ids tr : @kstr A mk isk objs ids tr ->
  exists l, picked objs ids = Ok l /\ length l = length ids /\
    forall i id, nth_error ids i = Some id -> exists ob, nth_error objs id = Some ob /\ nth_error l i = Some (fst ob).
Proof.
  intros K. assert (H : forall i, In i ids -> i < length objs) by (intros; eapply k_lt; eauto). clear K.
  induction ids as [|j t IH].
  - exists []. repeat split; auto. intros [|i] id; discriminate.
  - destruct IH as (ns & E & L & G); [intros; apply H; right; auto|].
    destruct (nth_error objs j) as [oj|] eqn:Ej; [|apply nth_error_None in Ej; specialize (H j (or_introl eq_refl)); lia].
    exists (fst oj :: ns). split; [|split].
    + unfold picked in *. cbn [mmap]. unfold get at 1. rewrite Ej. cbn [bind]. rewrite E. auto.
    + cbn; auto.
    + intros [|i] id Hi; cbn in Hi; [injection Hi as <-; exists oj; auto|]. apply G in Hi. auto.
Qed.
Lemma picked_named {A} (nm : A -> string) mk isk objs ids tr l : @kstr A mk isk objs ids tr -> knam nm mk objs ids tr ->
  picked objs ids = Ok l -> named tr (filter isk (additions tr)) (map nm l) /\ NoDup (map nm l).
Proof.
  intros K N H. destruct (picked_spec nm _ _ _ _ _ K) as (l' & H' & L & G). rewrite H in H'. injection H' as <-.
  split.
  - rewrite <- (k_ids _ _ _ _ _ K). unfold named. clear H.
    assert (KN := k_name _ _ _ _ _ N).
    assert (X : forall ids l, length l = length ids ->
      (forall i id, nth_error ids i = Some id -> exists ob, nth_error objs id = Some ob /\ nth_error l i = Some (fst ob)) ->
      Forall2 (created_as tr) (map mk ids) (map nm l)).
    { clear - KN. induction ids as [|j t IH]; intros [|a l] L G; try discriminate; cbn [map]; constructor.
      - destruct (G 0 j eq_refl) as (ob & Ho & Ha). cbn in Ha. injection Ha as ->. auto.
      - apply IH; [cbn in L; lia|]. intros i id Hi. apply (G (S i) id Hi). }
    apply X; auto.
  - apply NoDup_nth_error. intros i j Hi E. rewrite map_length, L in Hi.
    destruct (nth_error ids i) as [a|] eqn:Ea; [|apply nth_error_None in Ea; lia].
    destruct (G _ _ Ea) as (oa & Ha & La).
    rewrite (map_nth_error nm _ _ La) in E. symmetry in E.
    assert (Hj : j < length ids).
    { rewrite <- L, <- (map_length nm). apply nth_error_Some. congruence. }
    destruct (nth_error ids j) as [b|] eqn:Eb; [|apply nth_error_None in Eb; lia].
    destruct (G _ _ Eb) as (ob & Hb & Lb). rewrite (map_nth_error nm _ _ Lb) in E. injection E as E.
    assert (a = b).
    { eapply (k_dist _ _ _ _ _ N); eauto; eapply nth_error_In; eauto. }
    subst b. assert (ND : NoDup ids).
    { assert (ND := firsts_nodup (flat_map added tr) []). fold (additions tr) in ND.
      apply (NoDup_filter isk) in ND. rewrite <- (k_ids _ _ _ _ _ K) in ND. apply NoDup_map_inv in ND. auto. }
    apply (proj1 (NoDup_nth_error ids) ND); [lia|congruence].
Qed.
End Step.
