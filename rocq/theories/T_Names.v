(** Property theorems about names inside constraints: C24. *)
From Verif Require Import Base M_Data Spec M_Names M_Build Spec_Input P_Compile P_Resolve P_Input P_Meta Spec_Script P_Names Spec_Names.
From Verif Require T_Input P_Search3.
From Coq Require Import String.
Notation length := Datatypes.length.
Notation get := Base.get.
Import ListNotations.
Open Scope list_scope.

(** ** The names the builder looks at are those of the built input *)
Lemma set_length {A} (l : list A) i v l' : set l i v = Ok l' -> length l' = length l.
Proof. intros H. apply set_ok in H as [_ ->]. apply upd_length. Qed.
Lemma combine_map_l {X Y Z} (f : X -> Z) (a : list X) (b : list Y) : length a = length b -> map (fun p => f (fst p)) (combine a b) = map f a.
Proof. revert b. induction a as [|x a IH]; intros [|y b] H; cbn in *; try discriminate; auto. f_equal. apply IH. lia. Qed.

Section Names.
Variables (pr : profile) (r : reader) (d : input_data) (raw cs : list constraint) (css : list chooser_data).
Hypothesis B : built_from pr r d raw cs css.
Let x0 := mkCtx (build_slots r) css (blocks 0 (r_choices r)).

Lemma chooser_names : map cs_name (i_choosers d) = map cs_name css.
Proof.
  destruct (bf_choosers _ _ _ _ _ _ B) as (prefs & Hp & ->). rewrite map_map. cbn [cs_name]. apply combine_map_l.
  unfold get_dependent_prefs in Hp. apply bind_ok in Hp as (gs & _ & Hp). apply bind_ok in Hp as (p0 & H0 & Hp).
  apply mmap_length in H0. rewrite <- H0. clear -Hp. revert p0 Hp.
  induction cs as [|k t IH]; intros p0 Hp; cbn in Hp; [injection Hp as ->; auto|].
  apply bind_ok in Hp as (p1 & H1 & Hp). rewrite <- (IH _ Hp). destruct (kind_eqb _ _); [|injection H1 as ->; auto].
  apply bind_ok in H1 as (o & _ & H1). apply bind_ok in H1 as (row & _ & H1). apply bind_ok in H1 as (row' & _ & H1).
  symmetry. eapply set_length; eauto.
Qed.
Lemma choice_names : map ch_name (i_choices d) = map ch_name (blocks 0 (r_choices r)).
Proof.
  apply P_Search3.nth_error_ext. intros i. rewrite !nth_error_map. destruct (nth_error (i_choices d) i) as [ch|] eqn:E.
  - destruct (b_choice_nth _ _ _ _ _ _ B _ _ E) as (cd & -> & HN & _). cbn. congruence.
  - destruct (nth_error (blocks 0 (r_choices r)) i) as [cd|] eqn:E2; auto.
    apply nth_error_None in E. rewrite (b_choices_length _ _ _ _ _ _ B) in E.
    assert (i < length (blocks 0 (r_choices r))) by (apply nth_error_Some; congruence). lia.
Qed.
Lemma slots_same : i_slots d = build_slots r.
Proof. exact (bf_slots _ _ _ _ _ _ B). Qed.

Lemma find_matches a l : matches d a l -> fuzzy_find (a_name a) (names_of d a) = l.
Proof. intros H. eapply best_unique; [apply fuzzy_best|exact H]. Qed.

(** A reference is resolved iff it matches exactly one object. *)
Lemma resolve_named a v : by_name a -> resolve_accessor x0 a = Ok v -> exists l, matches d a l /\
  match v with None => l = [] | Some _ => exists i, l = [i] end.
Proof.
  intros Hn H. exists (fuzzy_find (a_name a) (names_of d a)). split; [apply fuzzy_best|].
  unfold resolve_accessor in H. unfold names_of. destruct Hn as [E|[E|E]]; rewrite E in *; cbn [x0 x_slots x_choosers x_choices] in H.
  - rewrite slots_same. unfold find_name in H. destruct (fuzzy_find _ _) as [|i [|]]; cbn in H; try discriminate; injection H as <-; cbn; eauto.
  - rewrite choice_names. unfold find_name in H. destruct (fuzzy_find _ _) as [|i [|]]; cbn [bind] in H; try discriminate.
    + injection H as <-; auto.
    + apply bind_ok in H as (c & _ & H). injection H as <-. eauto.
  - rewrite chooser_names. unfold find_name in H. destruct (fuzzy_find _ _) as [|i [|]]; cbn in H; try discriminate; injection H as <-; cbn; eauto.
Qed.

Lemma resolve_completed a a' : completed d a a' -> resolve_accessor x0 a' = resolve_accessor x0 a.
Proof.
  intros [->|(Hn & HK & HS & HP & i & HM & Hi & HU)]; auto. apply find_matches in HM.
  pose proof (find_exact_one _ _ _ Hi HU) as HF.
  assert (HF0 : find_name (a_name a) (names_of d a) = Ok (Some i)) by (unfold find_name; rewrite HM; auto).
  unfold names_of in HF, HF0. unfold resolve_accessor. rewrite HK, HP.
  destruct Hn as [E|[E|E]]; rewrite E in *; cbn [x0 x_slots x_choosers x_choices].
  - rewrite slots_same in *. rewrite HF, HF0. auto.
  - rewrite choice_names in *. rewrite HF, HF0. auto.
  - rewrite chooser_names in *. rewrite HF, HF0. auto.
Qed.
Lemma completed_kind a a' : completed d a a' -> a_kind a' = a_kind a /\ a_sub a' = a_sub a.
Proof. intros [->|(_ & ? & ? & _)]; auto. Qed.

Lemma add_completed e e' k ex : completed_expr d e e' -> add_constraint x0 e' k ex = add_constraint x0 e k ex.
Proof.
  intros (HL & _ & HR). unfold add_constraint. rewrite (resolve_completed _ _ HL), (resolve_completed _ _ HR).
  destruct (completed_kind _ _ HR) as [-> _]. reflexivity.
Qed.
Lemma table_completed e e' : completed_expr d e e' -> table e' = table e.
Proof.
  intros (HL & HE & HR). unfold table. destruct (completed_kind _ _ HL) as [-> ->]. destruct (completed_kind _ _ HR) as [-> ->]. rewrite HE. reflexivity.
Qed.
Lemma swap_completed e e' : completed_expr d e e' -> completed_expr d (swap_sides e) (swap_sides e').
Proof. intros (HL & HE & HR). repeat split; auto. Qed.
Lemma build_completed e e' : completed_expr d e e' -> build_expr x0 e' = build_expr x0 e.
Proof.
  intros HC. unfold build_expr. rewrite (table_completed _ _ HC), (table_completed _ _ (swap_completed _ _ HC)).
  destruct (table e) as [[k ex]|]; [apply add_completed; auto|].
  destruct (table (swap_sides e)) as [[k ex]|]; auto. apply add_completed, swap_completed; auto.
Qed.

(** A constraint that is accepted although a side matches nothing is dropped. *)
Lemma resolve_none a v : by_name a -> matches d a [] -> resolve_accessor x0 a = Ok v -> v = None.
Proof.
  intros Hn HM H. destruct (resolve_named a v Hn H) as (l & Hl & Hv).
  rewrite (find_matches _ _ Hl) in * || idtac. assert (l = []) by (eapply best_unique; eauto). subst l.
  destruct v; auto. destruct Hv as (i & Hv); discriminate.
Qed.
Lemma add_none e k ex out a b : sides e a b -> by_name a -> matches d a [] -> add_constraint x0 e k ex = Ok out -> out = [].
Proof.
  intros HS Hn HM H. unfold add_constraint in H. apply bind_ok in H as (rt & HR & H).
  destruct rt as [t|]; [|injection H as <-; auto]. apply bind_ok in H as (l & HL & H).
  destruct HS as [[EL ER]|[EL ER]]; subst a b.
  - rewrite (resolve_none _ _ Hn HM HL) in H. injection H as <-; auto.
  - exfalso. destruct Hn as [E|[E|E]]; rewrite E in HR; apply bind_ok in HR as (v & HV & HR);
      (assert (v = None) by (eapply resolve_none; [|exact HM|exact HV]; unfold by_name; tauto)); subst v; discriminate.
Qed.
Lemma sides_swap e a b : sides e a b -> sides (swap_sides e) a b.
Proof. unfold sides, swap_sides; cbn. tauto. Qed.
Lemma build_none e out a b : sides e a b -> by_name a -> matches d a [] -> build_expr x0 e = Ok out -> out = [].
Proof.
  intros HS Hn HM H. unfold build_expr in H. destruct (table e) as [[k ex]|]; [eapply add_none; eauto|].
  destruct (table (swap_sides e)) as [[k ex]|]; [|discriminate]. eapply add_none; [apply sides_swap; exact HS|..]; eauto.
Qed.

(** An accepted constraint has no ambiguous side, unless the other side matches nothing. *)
Lemma add_unique e k ex out a b l : sides e a b -> by_name a -> ~ (by_name b /\ matches d b []) -> matches d a l ->
  add_constraint x0 e k ex = Ok out -> length l <= 1.
Proof.
  intros HS Hn HB HM H. unfold add_constraint in H. apply bind_ok in H as (rt & HR & H).
  assert (ONE : forall v, resolve_accessor x0 a = Ok v -> length l <= 1).
  { intros v HV. destruct (resolve_named a v Hn HV) as (l' & Hl & Hv). assert (l' = l) by (eapply best_unique; eauto). subst l'.
    destruct v; [destruct Hv as (i & ->)|subst l]; cbn; auto. }
  destruct HS as [[EL ER]|[EL ER]]; subst a b.
  - assert (RT : rt <> None).
    { intros ->. apply HB.
      assert (X : by_name (e_right e) /\ resolve_accessor x0 (e_right e) = Ok None).
      { unfold by_name. destruct (a_kind (e_right e)); cbn in HR; try discriminate; apply bind_ok in HR as (v & HV & HR);
          try (destruct v; [discriminate|]; split; [tauto|exact HV]).
        apply bind_ok in HR as (n & _ & HR). destruct (_ <=? _)%N; discriminate. }
      destruct X as [X1 X2]. split; auto. destruct (resolve_named _ _ X1 X2) as (l' & Hl & Hv). cbn in Hv. subst l'. auto. }
    destruct rt as [t|]; [|tauto]. apply bind_ok in H as (v & HV & _). eauto.
  - destruct Hn as [E|[E|E]]; rewrite E in HR; apply bind_ok in HR as (v & HV & _); eauto.
Qed.
Lemma build_unique e out a b l : sides e a b -> by_name a -> ~ (by_name b /\ matches d b []) -> matches d a l ->
  build_expr x0 e = Ok out -> length l <= 1.
Proof.
  intros HS Hn HB HM H. unfold build_expr in H. destruct (table e) as [[k ex]|]; [eapply add_unique; eauto|].
  destruct (table (swap_sides e)) as [[k ex]|]; [|discriminate]. eapply add_unique; [apply sides_swap; exact HS|..]; eauto.
Qed.

Lemma expr_built e : In e (r_exprs r) -> exists out, build_expr x0 e = Ok out.
Proof.
  intros He. pose proof (bf_raw _ _ _ _ _ _ B) as HR. unfold raw_constraints in HR. apply bind_ok in HR as (built & HB & _).
  fold x0 in HB. clear -He HB. revert built HB. induction (r_exprs r) as [|e0 t IH]; [destruct He|]. intros built HB. cbn in HB.
  apply bind_ok in HB as (o & Ho & HB). apply bind_ok in HB as (os & Hos & HB). destruct He as [->|He]; eauto.
Qed.
End Names.

(** Replacing the constraint list by one that compiles to the same list keeps the input. *)
Lemma build_same_raw pr r d raw cs css es : built_from pr r d raw cs css -> build_input pr r = Ok d ->
  raw_constraints (mkCtx (build_slots r) css (blocks 0 (r_choices r))) es = Ok raw ->
  build_input pr (with_exprs r es) = Ok d.
Proof.
  intros B H HR. unfold build_input in *. unfold with_exprs.
  change (build_preferences pr (mkReader (r_slots r) (r_choices r) (r_choosers r) es)) with (build_preferences pr r).
  destruct (build_preferences pr r) as [[m mc]| |] eqn:EP; cbn [bind] in *; try discriminate.
  destruct (build_prefs_ok _ _ _ _ EP) as (HC & Em & Emc).
  cbn [r_choices r_choosers r_slots r_exprs].
  destruct (compile_choices (r_choices r) mc) as [chs css'] eqn:Ecc.
  destruct (compile_spec (r_choices r) mc chs css') as [-> Ecss]; auto.
  { intros c Hc. rewrite Emc in Hc. apply in_map_iff in Hc as (c0 & <- & Hc0). cbn. rewrite map_length. auto. }
  assert (EC : css' = css).
  { rewrite Ecss, (bf_css _ _ _ _ _ _ B), Emc. rewrite (bf_max _ _ _ _ _ _ B), Em. reflexivity. }
  clear Ecss. subst css'. rewrite (bf_raw _ _ _ _ _ _ B) in H.
  change (build_slots (mkReader (r_slots r) (r_choices r) (r_choosers r) es)) with (build_slots r). rewrite HR. exact H.
Qed.

(** ** C24.  In an accepted input no name in a constraint is ambiguous (unless the
    constraint is void, because its other side names nothing at all). *)
Theorem C24_constraint_names_unambiguous :
  forall pr r d e a b l,
    build_input pr r = Ok d -> In e (r_exprs r) -> sides e a b -> by_name a -> matches d a l ->
    ~ (by_name b /\ matches d b []) -> length l <= 1.
Proof.
  intros pr r d e a b l H He HS Hn HM HB. destruct (build_inv _ _ _ H) as (raw & cs & css & B).
  destruct (expr_built _ _ _ _ _ _ B e He) as (out & Ho). exact (build_unique _ _ _ _ _ _ B _ _ _ _ _ HS Hn HB HM Ho).
Qed.
Print Assumptions C24_constraint_names_unambiguous.

(** Writing out in full the names that constraints give in a shortened form changes
    nothing: the input built is the same. *)
Theorem C24_constraint_names_completed :
  forall pr r d es,
    build_input pr r = Ok d -> Forall2 (completed_expr d) (r_exprs r) es -> build_input pr (with_exprs r es) = Ok d.
Proof.
  intros pr r d es H HF. destruct (build_inv _ _ _ H) as (raw & cs & css & B). eapply build_same_raw; eauto.
  rewrite <- (bf_raw _ _ _ _ _ _ B). unfold raw_constraints. f_equal.
  assert (E : mmap (build_expr (mkCtx (build_slots r) css (blocks 0 (r_choices r)))) es =
              mmap (build_expr (mkCtx (build_slots r) css (blocks 0 (r_choices r)))) (r_exprs r)).
  { clear -HF B. induction HF as [|e e' t t' HE HF IH]; auto. cbn [mmap]. rewrite (build_completed _ _ _ _ _ _ B _ _ HE), IH. auto. }
  rewrite E. reflexivity.
Qed.
Print Assumptions C24_constraint_names_completed.

(** A constraint one of whose names matches no object is not an error: it is as if
    it had not been written. *)
Theorem C24_unknown_names_void :
  forall pr r d es1 e es2 a b,
    build_input pr r = Ok d -> r_exprs r = es1 ++ e :: es2 -> sides e a b -> by_name a -> matches d a [] ->
    build_input pr (with_exprs r (es1 ++ es2)) = Ok d.
Proof.
  intros pr r d es1 e es2 a b H HE HS Hn HM. destruct (build_inv _ _ _ H) as (raw & cs & css & B). eapply build_same_raw; eauto.
  destruct (expr_built _ _ _ _ _ _ B e) as (out & Ho). { rewrite HE. apply in_elt. }
  pose proof (build_none _ _ _ _ _ _ B _ _ _ _ HS Hn HM Ho) as Eo. subst out.
  pose proof (bf_raw _ _ _ _ _ _ B) as HR. unfold raw_constraints in *. rewrite HE in HR.
  set (g := build_expr (mkCtx (build_slots r) css (blocks 0 (r_choices r)))) in *. clearbody g.
  apply bind_ok in HR as (built & HB & HR).
  assert (X : exists built', mmap g (es1 ++ es2) = Ok built' /\ List.concat built' = List.concat built).
  { clear -HB Ho. revert built HB. induction es1 as [|e0 t IH]; intros built HB; cbn [app mmap] in *.
    - rewrite Ho in HB. cbn [bind] in HB. apply bind_ok in HB as (os & Hos & HB). injection HB as <-. eauto.
    - apply bind_ok in HB as (o & Ho0 & HB). apply bind_ok in HB as (os & Hos & HB). injection HB as <-.
      destruct (IH _ Hos) as (bs & E1 & E2). rewrite Ho0, E1. cbn [bind]. exists (o :: bs). split; auto. cbn. congruence. }
  destruct X as (built' & -> & EC). cbn [bind]. rewrite EC. exact HR.
Qed.
Print Assumptions C24_unknown_names_void.

(** Two slots with a common word; the constraints call the second one "Tuesday",
    and speak of a "Friday" that does not exist. *)
Import T_Input.
Definition e24a (n : string) : expr := mkE (acc_choice "a" ASlot 0) REq (acc_slot n ANotSet).
Definition e24b : expr := mkE (acc_choice "b" ASlot 0) REq (acc_slot "Friday" ANotSet).
Definition r24 (es : list expr) : reader := mkReader
  [mkSlot "Early Monday"; mkSlot "Early Tuesday"]
  [mkProto "a" 1 2 1 false; mkProto "b" 1 2 1 false]
  [mkChooser "Ann" [1; 5]%N; mkChooser "Bob" [9; 0]%N] es.
Definition d24 : input_data :=
  match build_input Debug (r24 [e24a "Tuesday"; e24b]) with Ok d => d | _ => mkInput [] [] [] [] [] [] [] 0 [] [] end.
Lemma matches_found d a : matches d a (fuzzy_find (a_name a) (names_of d a)).
Proof. apply fuzzy_best. Qed.
Example C24_constraint_names_witness :
  build_input Debug (r24 [e24a "Tuesday"; e24b]) = Ok d24 /\
  matches d24 (acc_slot "Tuesday" ANotSet) [1] /\ matches d24 (acc_slot "Friday" ANotSet) [] /\
  matches d24 (acc_slot "Early" ANotSet) [0; 1] /\
  sides (e24a "Tuesday") (acc_slot "Tuesday" ANotSet) (acc_choice "a" ASlot 0) /\
  ~ (by_name (acc_choice "a" ASlot 0) /\ matches d24 (acc_choice "a" ASlot 0) []) /\
  Forall2 (completed_expr d24) [e24a "Tuesday"; e24b] [e24a "Early Tuesday"; e24b] /\
  In (mkC ChoiceIsInSlot 0 (TSlot 1) ENone) (i_sched d24) /\ length (i_sched d24) = 1 /\
  (exists m, build_input Debug (r24 [e24a "Early"]) = Err m).
Proof.
  split; [vm_compute; reflexivity|]. split; [apply (matches_found d24 (acc_slot "Tuesday" ANotSet))|].
  split; [apply (matches_found d24 (acc_slot "Friday" ANotSet))|]. split; [apply (matches_found d24 (acc_slot "Early" ANotSet))|].
  split; [right; split; reflexivity|]. split.
  { intros [_ H]. pose proof (best_unique _ _ _ _ H (matches_found d24 (acc_choice "a" ASlot 0))) as E. vm_compute in E. discriminate. }
  split.
  { constructor; [|constructor; [|constructor]]; repeat split; try (left; reflexivity).
    right. split; [left; reflexivity|]. repeat split. exists 1. split; [apply (matches_found d24 (acc_slot "Tuesday" ANotSet))|].
    split; [vm_compute; reflexivity|]. intros [|[|j]] H; vm_compute in H; try discriminate; auto. destruct j; discriminate. }
  split; [vm_compute; auto|]. split; [vm_compute; reflexivity|]. eexists. vm_compute. reflexivity.
Qed.
