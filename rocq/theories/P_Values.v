(** Kept values: a run of the statements is a run of the script written out. *)
From Verif Require Import Base M_Data M_Names M_Build P_Resolve M_Script Spec_Script P_Script1 P_Names P_Script2 P_Script3 M_Values Spec_Values.
From Coq Require Import String.
Notation length := Datatypes.length.
Notation get := Base.get.

(** ** Names stay as long as nothing is renamed *)
Definition names_kept {A} (nm : A -> string) (a b : list (A * bool)) : Prop :=
  forall i ob, nth_error a i = Some ob -> exists ob', nth_error b i = Some ob' /\ nm (fst ob') = nm (fst ob).
Lemma kept_refl {A} (nm : A -> string) a : names_kept nm a a. Proof. intros i ob H. eauto. Qed.
Lemma kept_app {A} (nm : A -> string) a c : names_kept nm a (a ++ c).
Proof. intros i ob H. exists ob. split; auto. rewrite nth_error_app1; auto. apply nth_error_Some. congruence. Qed.
Lemma kept_register {A} (nm : A -> string) objs ids id objs' ids' :
  register nm objs ids id = Ok (objs', ids') -> names_kept nm objs objs'.
Proof.
  intros H. apply register_cases in H as (ob & Hob & _ & [(_ & -> & _)|(_ & -> & _)]); [apply kept_refl|].
  intros i o Ho. assert (id < length objs) by (apply nth_error_Some; congruence). destruct (Nat.eq_dec i id) as [-> |Hne].
  - rewrite Hob in Ho. injection Ho as <-. rewrite nth_error_upd_same; eauto.
  - rewrite nth_error_upd_other; eauto.
Qed.
Record later (st st' : rstate) : Prop := {
  l_slots : names_kept sl_name (rs_slots st) (rs_slots st');
  l_choices : names_kept p_name (rs_choices st) (rs_choices st');
  l_choosers : names_kept cs_name (rs_choosers st) (rs_choosers st')
}.
Lemma later_refl st : later st st. Proof. split; apply kept_refl. Qed.

Lemma eval_later st st' x a : later st st' -> eval_operand st x = Ok a -> eval_operand st' x = Ok a.
Proof.
  intros [H1 H2 H3] H.
  assert (S : forall i n, slot_name st i = Ok n -> slot_name st' i = Ok n).
  { unfold slot_name. intros i n E. apply bind_ok in E as (ob & Ho & E). apply get_ok in Ho.
    destruct (H1 _ _ Ho) as (ob' & Ho' & En). apply get_ok in Ho'. rewrite Ho'. cbn. congruence. }
  assert (C : forall i n, choice_name st i = Ok n -> choice_name st' i = Ok n).
  { unfold choice_name. intros i n E. apply bind_ok in E as (ob & Ho & E). apply get_ok in Ho.
    destruct (H2 _ _ Ho) as (ob' & Ho' & En). apply get_ok in Ho'. rewrite Ho'. cbn. congruence. }
  assert (P : forall i n, chooser_name st i = Ok n -> chooser_name st' i = Ok n).
  { unfold chooser_name. intros i n E. apply bind_ok in E as (ob & Ho & E). apply get_ok in Ho.
    destruct (H3 _ _ Ho) as (ob' & Ho' & En). apply get_ok in Ho'. rewrite Ho'. cbn. congruence. }
  destruct x; cbn [eval_operand] in H |- *; auto;
    apply bind_ok in H as (n & Hn & H); first [apply S in Hn|apply C in Hn|apply P in Hn]; rewrite Hn; cbn [bind]; exact H.
Qed.

Section Run.
Context {F : Type} (pr : profile) (pf : string -> option F).
Implicit Types (w : world F).

Lemma exec_later w x r w' : is_rename x = false -> exec pr pf w x = (r, w') -> later (w_state w) (w_state w').
Proof.
  intros Hr H. destruct x as [n|n ts|n ps|h|h n|l rl rt|args]; cbn [exec] in H; [| | | |discriminate| |].
  - apply keep_ok in H as [(h & st & H & _ & ->)|[(m & _ & _ & ->)|(_ & _ & ->)]]; try apply later_refl. cbn [w_state].
    unfold do_slot in H. apply bind_ok in H as (f & _ & H). destruct f; injection H as _ <-; [apply later_refl|].
    split; cbn; try apply kept_refl. apply kept_app.
  - apply keep_ok in H as [(h & st & H & _ & ->)|[(m & _ & _ & ->)|(_ & _ & ->)]]; try apply later_refl. cbn [w_state].
    apply bind_ok in H as (tags & _ & H). unfold do_choice in H. apply bind_ok in H as (f & _ & H).
    destruct f; [injection H as _ <-; apply later_refl|]. apply bind_ok in H as (p & _ & H). injection H as _ <-.
    split; cbn; try apply kept_refl. apply kept_app.
  - apply keep_ok in H as [(h & st & H & _ & ->)|[(m & _ & _ & ->)|(_ & _ & ->)]]; try apply later_refl. cbn [w_state].
    apply bind_ok in H as (prefs & _ & H). unfold do_chooser in H. apply bind_ok in H as (f & _ & H).
    destruct f; injection H as _ <-; [apply later_refl|]. split; cbn; try apply kept_refl. apply kept_app.
  - apply keep_ok in H as [(h' & st & H & _ & ->)|[(m & _ & _ & ->)|(_ & _ & ->)]]; try apply later_refl. cbn [w_state].
    destruct h; cbn [do_add] in H; apply bind_ok in H as ([objs ids] & Hr' & H); injection H as _ <-;
      apply kept_register in Hr'; split; cbn; auto; apply kept_refl.
  - destruct (do_constrain (w_state w) l rl rt) as [st'|m|] eqn:E; injection H as _ <-; try apply later_refl.
    unfold do_constrain in E. apply bind_ok in E as (a & _ & E). apply bind_ok in E as (b & _ & E). injection E as <-.
    cbn [w_state]. split; cbn; apply kept_refl.
  - destruct (set_arguments pr pf (w_opts w) args) as [[?|m|] o]; injection H as _ <-; apply later_refl.
Qed.

(** What a value has to do with what was written. *)
Definition stands (st : rstate) (t : text) (v : value) : Prop :=
  match t, v with
  | TAttr x, VAcc a => eval_operand st x = Ok a
  | TCon l r rt, VExpr e => exists a b, eval_operand st l = Ok a /\ eval_operand st rt = Ok b /\ e = mkE a r b
  | _, _ => False
  end.
Definition text_handles (t : text) : list handle :=
  match t with TAttr x => operand_handles x | TCon l _ rt => operand_handles l ++ operand_handles rt end.
Lemma stands_later st st' t v : later st st' -> stands st t v -> stands st' t v.
Proof.
  intros L. destruct t, v; cbn; auto; [apply eval_later; auto|].
  intros (a & b & H1 & H2 & ->). exists a, b. split; [eapply eval_later; eauto|]. split; [eapply eval_later; eauto|auto].
Qed.
Lemma env_later st st' ts vs : later st st' -> Forall2 (stands st) ts vs -> Forall2 (stands st') ts vs.
Proof. intros L H. induction H; constructor; eauto using stands_later. Qed.

Lemma side_spelt st ts vs s a : Forall2 (stands st) ts vs -> eval_side st vs s = Ok a ->
  exists x, spelt ts s = Some x /\ eval_operand st x = Ok a.
Proof.
  intros HE H. destruct s as [x|k]; cbn in H |- *; eauto.
  destruct (nth_error vs k) as [[b|]|] eqn:E; try discriminate. injection H as ->.
  revert k E. induction HE as [|t v ts vs Hs HE IH]; intros [|k] E; cbn in E; try discriminate.
  - injection E as ->. cbn. destruct t; [|contradiction]. eauto.
  - apply IH in E as (x & Hx & He). eauto.
Qed.
Lemma build_ok st vs l r rt e : build st vs l r rt = Ok e ->
  exists a b, eval_side st vs l = Ok a /\ eval_side st vs rt = Ok b /\ e = mkE a r b.
Proof.
  unfold build. destruct (type_of vs l), (type_of vs rt); try discriminate. destruct (overload _ _ _); [|discriminate].
  intros H. apply bind_ok in H as (a & Ha & H). apply bind_ok in H as (b & Hb & H). injection H as <-. eauto.
Qed.
Lemma env_nth st ts vs k v : Forall2 (stands st) ts vs -> nth_error vs k = Some v -> exists t, nth_error ts k = Some t /\ stands st t v.
Proof.
  intros H. revert k. induction H as [|t u ts vs Hs HE IH]; intros [|k] E; cbn in E; try discriminate.
  - injection E as ->. exists t. auto.
  - apply IH in E as (t' & Ht & Hs'). exists t'. auto.
Qed.
Lemma side_np st vs s t : sinv st t -> incl (side_handles s) (issued t) -> eval_side st vs s <> Panic.
Proof.
  intros I Hu. destruct s as [x|k]; cbn; [eapply eval_operand_np; eauto|].
  destruct (nth_error vs k) as [[|]|]; discriminate.
Qed.
Lemma build_np st vs l r rt t : sinv st t -> incl (side_handles l ++ side_handles rt) (issued t) -> build st vs l r rt <> Panic.
Proof.
  intros I Hu. unfold build. destruct (type_of vs l), (type_of vs rt); try discriminate. destruct (overload _ _ _); [|discriminate].
  apply bind_np; [eapply side_np; eauto; intros h Hh; apply Hu, in_or_app; auto|]. intros a _.
  apply bind_np; [eapply side_np; eauto; intros h Hh; apply Hu, in_or_app; auto|]. discriminate.
Qed.
Lemma spelt_handles ts H s x : Forall (fun t => incl (text_handles t) H) ts -> spelt ts s = Some x ->
  incl (side_handles s) H -> incl (operand_handles x) H.
Proof.
  intros HF E Hu. destruct s as [y|k]; cbn in *; [injection E as ->; auto|].
  destruct (nth_error ts k) as [[y|]|] eqn:En; try discriminate. injection E as ->.
  apply nth_error_In in En. rewrite Forall_forall in HF. apply (HF _ En).
Qed.

(** The invariant: [t0] is the plain run so far, [H0] the handles the script holds. *)
Lemma run_written : forall xs w vs ts t0 tr w',
  exec_stmts pr pf w vs xs = (tr, w') -> no_renaming xs ->
  sinv (w_state w) t0 -> Forall2 (stands (w_state w)) ts vs ->
  Forall (fun t => incl (text_handles t) (issued t0)) ts ->
  (forall t1 e t2, tr = t1 ++ e :: t2 -> incl (stmt_uses (fst e)) (issued t0 ++ vissued t1)) ->
  exists ptr, exec_all pr pf w (written_out ts tr) = (ptr, w') /\
    (forall t1 e t2, ptr = t1 ++ e :: t2 -> incl (uses (fst e)) (issued t0 ++ issued t1)) /\
    existsb panicked ptr = existsb vpanicked tr.
Proof.
  induction xs as [|x xs IH]; intros w vs ts t0 tr w' H HN I HE HT HP; cbn [exec_stmts] in H.
  { injection H as <- <-. exists []. cbn. split; [reflexivity|]. split; [|reflexivity]. intros [|? ?] ? ? E; discriminate. }
  destruct (exec_stmt pr pf w vs x) as [[r w1] vs1] eqn:Ex. destruct (exec_stmts pr pf w1 vs1 xs) as [tr1 w2] eqn:Er.
  injection H as <- <-.
  assert (HN1 : no_renaming xs) by (intros h n Hin; apply (HN h n); right; auto).
  assert (HX : incl (stmt_uses x) (issued t0)).
  { specialize (HP [] (x, r) tr1 eq_refl). cbn in HP. rewrite app_nil_r in HP. exact HP. }
  (* a call made by the plain script *)
  assert (CALL : forall c r1, exec pr pf w c = (r1, w1) -> is_rename c = false -> incl (uses c) (issued t0) ->
            returned r1 = returned r -> vs1 = vs -> (forall y, panicked (y, r1) = vpanicked (x, r)) ->
            written_out ts ((x, r) :: tr1) = c :: written_out ts tr1 ->
            exists ptr, exec_all pr pf w (written_out ts ((x, r) :: tr1)) = (ptr, w2) /\
              (forall t1 e t2, ptr = t1 ++ e :: t2 -> incl (uses (fst e)) (issued t0 ++ issued t1)) /\
              existsb panicked ptr = existsb vpanicked ((x, r) :: tr1)).
  { intros c r1 Hc Hr Hu Er1 -> Hpan EW. assert (I1 := step_sinv _ _ _ _ _ _ _ I Hc Hu). assert (L := exec_later _ _ _ _ Hr Hc).
    destruct (IH w1 vs ts (t0 ++ [(c, r1)]) tr1 w2 Er HN1 I1 (env_later _ _ _ _ L HE)) as (ptr & H1 & H2 & H3).
    { rewrite Forall_forall in HT |- *. intros t Ht h Hh. rewrite issued_app. apply in_or_app. left. apply (HT t Ht); auto. }
    { intros t1 e t2 E. rewrite issued_app, issued_one. cbn [snd]. rewrite Er1, <- app_assoc.
      specialize (HP ((x, r) :: t1) e t2). cbn [app vissued flat_map snd] in HP. apply HP. rewrite E. reflexivity. }
    rewrite EW. cbn [exec_all]. rewrite Hc, H1. exists ((c, r1) :: ptr). split; [reflexivity|]. split.
    - intros [|e1 t1] e t2 E; cbn [app] in E; injection E as <- E; [cbn [fst issued flat_map]; rewrite app_nil_r; auto|].
      specialize (H2 _ _ _ E). rewrite issued_app, issued_one in H2. cbn [snd] in H2. rewrite <- app_assoc in H2. exact H2.
    - cbn [existsb]. rewrite H3, Hpan. reflexivity. }
  (* a statement the plain script does not have *)
  assert (SKIP : forall ts', w1 = w -> returned r = [] -> vpanicked (x, r) = false ->
            Forall2 (stands (w_state w)) ts' vs1 -> Forall (fun t => incl (text_handles t) (issued t0)) ts' ->
            written_out ts ((x, r) :: tr1) = written_out ts' tr1 ->
            exists ptr, exec_all pr pf w (written_out ts ((x, r) :: tr1)) = (ptr, w2) /\
              (forall t1 e t2, ptr = t1 ++ e :: t2 -> incl (uses (fst e)) (issued t0 ++ issued t1)) /\
              existsb panicked ptr = existsb vpanicked ((x, r) :: tr1)).
  { intros ts' -> E1 E2 HE' HT' EW. destruct (IH w vs1 ts' t0 tr1 w2 Er HN1 I HE' HT') as (ptr & H1 & H2 & H3).
    { intros t1 e t2 E. specialize (HP ((x, r) :: t1) e t2). cbn [app vissued flat_map snd] in HP. rewrite E1 in HP.
      apply HP. rewrite E. reflexivity. }
    exists ptr. rewrite EW. split; [exact H1|]. split; [exact H2|]. cbn [existsb]. rewrite H3, E2. reflexivity. }
  assert (ADD : forall l rl rt e a b, w1 = mkWorld (with_expr (w_state w) e) (w_opts w) -> eval_operand (w_state w) l = Ok a ->
            eval_operand (w_state w) rt = Ok b -> e = mkE a rl b -> exec pr pf w (OpConstrain l rl rt) = (Ok None, w1)).
  { intros l rl rt e a b -> Ha Hb ->. cbn [exec]. unfold do_constrain. rewrite Ha. cbn [bind]. rewrite Hb. reflexivity. }
  destruct x as [c|a|l rl rt|k]; cbn [exec_stmt] in Ex.
  - destruct c as [n|n tg|n ps|h|h n|l rl rt|args].
    6:{ destruct (build (w_state w) vs (Fresh l) rl (Fresh rt)) as [e|m|] eqn:Eb; injection Ex as <- <- <-.
        - apply build_ok in Eb as (a & b & Ha & Hb & He). eapply (CALL (OpConstrain l rl rt) (Ok None)); try reflexivity.
          + eapply ADD; eauto.
          + exact HX.
        - apply (SKIP ts); auto.
        - exfalso. revert Eb. eapply build_np; eauto. }
    5:{ exfalso. apply (HN h n). left. reflexivity. }
    all: match type of Ex with (exec ?p1 ?p2 ?p3 ?c, _) = _ => destruct (exec p1 p2 p3 c) as [r1 w1'] eqn:Ec; injection Ex as <- <- <-;
           eapply (CALL c r1); try reflexivity; auto; destruct r1; reflexivity end.
  - destruct (operand_type a) eqn:Ety; try (injection Ex as <- <- <-; apply (SKIP ts); auto).
    destruct (eval_operand (w_state w) a) as [v|m|] eqn:Ea; cbn [keep_value] in Ex; injection Ex as <- <- <-.
    + apply (SKIP (ts ++ [TAttr a])); auto.
      * apply Forall2_app; auto.
      * apply Forall_app. split; auto.
    + apply (SKIP ts); auto.
    + exfalso. revert Ea. eapply eval_operand_np; eauto.
  - destruct (build (w_state w) vs l rl rt) as [e|m|] eqn:Eb; cbn [keep_value] in Ex; injection Ex as <- <- <-.
    + apply build_ok in Eb as (a & b & Ha & Hb & ->).
      destruct (side_spelt _ _ _ _ _ HE Ha) as (xa & Sa & Ea). destruct (side_spelt _ _ _ _ _ HE Hb) as (xb & Sb & Eb).
      cbn [stmt_uses] in HX.
      assert (HA : incl (operand_handles xa) (issued t0)) by (eapply spelt_handles; eauto; intros h Hh; apply HX, in_or_app; auto).
      assert (HB : incl (operand_handles xb) (issued t0)) by (eapply spelt_handles; eauto; intros h Hh; apply HX, in_or_app; auto).
      apply (SKIP (ts ++ [TCon xa rl xb])); auto.
      * apply Forall2_app; auto. constructor; auto. cbn. eauto.
      * apply Forall_app. split; auto. constructor; auto. cbn. apply incl_app; auto.
      * cbn [written_out]. rewrite Sa, Sb. reflexivity.
    + apply (SKIP ts); auto.
    + exfalso. revert Eb. eapply build_np; eauto.
  - destruct (nth_error vs k) as [[a|e]|] eqn:En; injection Ex as <- <- <-; try solve [apply (SKIP ts); auto].
    destruct (env_nth _ _ _ _ _ HE En) as ([x|l rl rt] & Et & Hs); cbn in Hs; [contradiction|].
    destruct Hs as (a & b & Ha & Hb & He).
    apply (CALL (OpConstrain l rl rt) (Ok None)); auto.
    + eapply ADD; eauto.
    + cbn [uses]. apply nth_error_In in Et. rewrite Forall_forall in HT. apply (HT _ Et).
    + cbn [written_out]. rewrite Et. reflexivity.
Qed.

Lemma renames_kept xs : forall w vs ts tr w', exec_stmts pr pf w vs xs = (tr, w') -> no_renaming xs -> no_renames (written_out ts tr).
Proof.
  induction xs as [|x xs IH]; intros w vs ts tr w' H HN; cbn [exec_stmts] in H; [injection H as <- <-; reflexivity|].
  destruct (exec_stmt pr pf w vs x) as [[r w1] vs1]. destruct (exec_stmts pr pf w1 vs1 xs) as [tr1 w2] eqn:Er. injection H as <- <-.
  assert (HN1 : no_renaming xs) by (intros h n Hin; apply (HN h n); right; auto).
  assert (G : forall ts', no_renames (written_out ts' tr1)) by (intros ts'; eapply IH; eauto).
  destruct x as [c|a|l rl rt|k]; cbn [written_out].
  - destruct c; try (unfold no_renames; cbn; apply G); [exfalso; eapply HN; left; reflexivity|].
    destruct r; unfold no_renames; cbn; apply G.
  - destruct r; apply G.
  - destruct r; try apply G. destruct (spelt ts l); [|reflexivity]. destruct (spelt ts rt); [apply G|reflexivity].
  - destruct r; try apply G. destruct (nth_error ts k) as [[]|]; try reflexivity. unfold no_renames; cbn; apply G.
Qed.

(** ** Only comparisons there are *)
Definition good_text (t : text) : Prop :=
  match t with TAttr x => attribute x | TCon l r rt => comparison l r rt end.
Definition value_text (t : text) (v : value) : Prop :=
  match t, v with TAttr _, VAcc _ => True | TCon _ _ _, VExpr _ => True | _, _ => False end.
Lemma operand_attr x : operand_type x = TyAttr <-> attribute x. Proof. destruct x; cbn; split; try discriminate; auto; contradiction. Qed.
Lemma operand_obj x : operand_type x = TyObject <-> an_object x. Proof. destruct x; cbn; split; try discriminate; auto; contradiction. Qed.
Lemma typed ts vs s ty x : Forall2 value_text ts vs -> Forall good_text ts -> type_of vs s = Some ty -> spelt ts s = Some x -> operand_type x = ty.
Proof.
  intros HV HG Ht Hs. destruct s as [y|k]; cbn in *; [congruence|].
  destruct (nth_error vs k) as [[a|]|] eqn:En; try discriminate. injection Ht as <-.
  destruct (nth_error ts k) as [[y|]|] eqn:Et; try discriminate. injection Hs as ->.
  apply nth_error_In in Et. rewrite Forall_forall in HG. apply operand_attr. apply (HG _ Et).
Qed.
Lemma overload_comparison r x y : overload r (operand_type x) (operand_type y) = true <-> comparison x r y.
Proof. destruct r, x, y; cbn; intuition congruence. Qed.
Lemma only_comparisons xs : forall w vs ts tr w', exec_stmts pr pf w vs xs = (tr, w') ->
  Forall2 value_text ts vs -> Forall good_text ts ->
  forall l r rt, In (OpConstrain l r rt) (written_out ts tr) -> ~ comparison l r rt ->
  exists t1 t2, tr = t1 ++ (SCall (OpConstrain l r rt), Panic) :: t2.
Proof.
  induction xs as [|x xs IH]; intros w vs ts tr w' H HV HG l r rt Hin Hc; cbn [exec_stmts] in H; [injection H as <- <-; destruct Hin|].
  destruct (exec_stmt pr pf w vs x) as [[r0 w1] vs1] eqn:Ex. destruct (exec_stmts pr pf w1 vs1 xs) as [tr1 w2] eqn:Er. injection H as <- <-.
  assert (G : forall ts', Forall2 value_text ts' vs1 -> Forall good_text ts' -> In (OpConstrain l r rt) (written_out ts' tr1) ->
              exists t1 t2, (x, r0) :: tr1 = t1 ++ (SCall (OpConstrain l r rt), Panic) :: t2).
  { intros ts' V1 G1 Hi. destruct (IH _ _ _ _ _ Er V1 G1 _ _ _ Hi Hc) as (t1 & t2 & ->). exists ((x, r0) :: t1), t2. reflexivity. }
  destruct x as [c|a|l0 rl rt0|k]; cbn [exec_stmt] in Ex.
  - destruct c as [n|n tg|n ps|h|h n|l0 rl rt0|args]; cbn [written_out] in Hin.
    6:{ unfold build in Ex. cbn [type_of] in Ex. destruct (overload rl (operand_type l0) (operand_type rt0)) eqn:Eo.
        - apply overload_comparison in Eo.
          assert (Hin' : In (OpConstrain l r rt) (written_out ts tr1)).
          { destruct r0; auto; destruct Hin as [E|Hin]; auto; injection E as -> -> ->; contradiction. }
          match type of Ex with (match ?q with _ => _ end) = _ => destruct q end; injection Ex as <- <- <-; eauto.
        - injection Ex as <- <- <-. eauto. }
    all: match type of Ex with (exec ?p1 ?p2 ?p3 ?c, _) = _ => destruct (exec p1 p2 p3 c) as [q w1']; injection Ex as <- <- <-;
           destruct Hin as [E|Hin]; [discriminate|eauto] end.
  - destruct (operand_type a) eqn:Ety; try (injection Ex as <- <- <-; cbn [written_out] in Hin; eauto; fail).
    destruct (eval_operand (w_state w) a) as [v|m|]; cbn [keep_value] in Ex; injection Ex as <- <- <-; cbn [written_out] in Hin; eauto.
    apply (G (ts ++ [TAttr a])); auto.
    + apply Forall2_app; auto. constructor; auto. cbn. auto.
    + apply Forall_app. split; auto. constructor; auto. apply operand_attr; auto.
  - destruct (build (w_state w) vs l0 rl rt0) as [e|m|] eqn:Eb; cbn [keep_value] in Ex; injection Ex as <- <- <-; cbn [written_out] in Hin; eauto.
    destruct (spelt ts l0) as [xa|] eqn:Sa; [|destruct Hin]. destruct (spelt ts rt0) as [xb|] eqn:Sb; [|destruct Hin].
    unfold build in Eb. destruct (type_of vs l0) as [ta|] eqn:Ta; [|discriminate]. destruct (type_of vs rt0) as [tb|] eqn:Tb; [|discriminate].
    destruct (overload rl ta tb) eqn:Eo; [|discriminate].
    assert (X1 := typed _ _ _ _ _ HV HG Ta Sa). assert (X2 := typed _ _ _ _ _ HV HG Tb Sb). subst ta tb. apply overload_comparison in Eo.
    apply (G (ts ++ [TCon xa rl xb])); auto.
    + apply Forall2_app; auto. constructor; auto. cbn. auto.
    + apply Forall_app. split; auto.
  - destruct (nth_error vs k) as [[a|e]|] eqn:En; injection Ex as <- <- <-; cbn [written_out] in Hin; eauto.
    destruct (nth_error ts k) as [[x|l0 r1 rt0]|] eqn:Et; try destruct Hin as []; eauto.
    injection H as -> -> ->. apply nth_error_In in Et. rewrite Forall_forall in HG. destruct (Hc (HG _ Et)).
Qed.
End Run.
