(** Property theorems about rejected inputs: C87. *)
From Verif Require Import Base M_Data Spec M_Names M_Build Spec_Input Spec_Meta P_Compile P_Resolve P_Input P_Input2 P_Meta
  Spec_Status Spec_Script P_Names Spec_Labels T_Labels Spec_Names Spec_Reject.
From Verif Require T_Input T_Names.
From Coq Require Import String Ascii.
Notation length := Datatypes.length.
Notation get := Base.get.
Import ListNotations.
Open Scope list_scope.

(** ** Forms *)
Lemma table_form e : (exists kx, table e = Some kx) <-> form (shape (e_left e)) (e_rel e) (shape (e_right e)).
Proof.
  unfold table, shape. split.
  - intros (kx & H). destruct (a_kind (e_left e)), (a_sub (e_left e)), (e_rel e), (a_kind (e_right e)), (a_sub (e_right e));
      try discriminate H; constructor; auto; discriminate.
  - intros H. inversion H; subst; repeat match goal with H : _ \/ _ |- _ => destruct H; subst end;
      rewrite ?H1, ?H2, ?H3, ?H4; eauto.
    destruct (e_rel e); try congruence; eauto.
Qed.

(** ** Numbers *)
Lemma digit_step c acc t : digits (Z.of_N acc) (String c t) =
  match digit_val c with Some v => digits (Z.of_N (acc * 10 + v)) t | None => None end.
Proof.
  cbn [digits]. unfold digit_val. destruct (N.leb_spec 48 (N_of_ascii c)), (N.leb_spec (N_of_ascii c) 57); cbn [andb];
    destruct (Z.leb_spec 0 (Z.of_N (N_of_ascii c) - 48)), (Z.leb_spec (Z.of_N (N_of_ascii c) - 48) 9); cbn [andb]; try lia; auto.
  f_equal. lia.
Qed.
Lemma digits_fail lim s : forall acc, parse_digits lim acc s = None ->
  (digits (Z.of_N acc) s = None /\ digits_error lim acc s = "invalid digit found in string"%string) \/
  (exists p t n, s = (p ++ t)%string /\ p <> ""%string /\ digits (Z.of_N acc) p = Some n /\ (n > Z.of_N lim)%Z /\
     digits_error lim acc s = "number too large to fit in target type"%string).
Proof.
  induction s as [|c s IH]; intros acc H; cbn [parse_digits digits_error] in *; [discriminate|]. rewrite digit_step.
  destruct (digit_val c) as [v|] eqn:EV; auto. destruct (N.leb_spec (acc * 10 + v) lim) as [HL|HL].
  - destruct (IH _ H) as [D|(p & t & n & -> & Hp & D & Hn & HE)]; auto. right. exists (String c p), t, n. rewrite digit_step, EV.
    repeat split; auto. discriminate.
  - right. exists (String c ""), s, (Z.of_N (acc * 10 + v)). rewrite digit_step, EV. repeat split; auto; [discriminate|lia].
Qed.
Lemma digits_grow s : forall acc n, (0 <= acc)%Z -> digits acc s = Some n -> (acc <= n)%Z.
Proof.
  induction s as [|c s IH]; intros acc n Ha H; cbn [digits] in H; [injection H as <-; lia|].
  destruct (_ && _)%Z eqn:E in H; [|discriminate]. apply andb_prop in E as [E _]. apply Z.leb_le in E.
  apply IH in H; lia.
Qed.
Lemma digits_bad lim s : forall acc, digits (Z.of_N acc) s = None -> parse_digits lim acc s = None.
Proof.
  induction s as [|c s IH]; intros acc H; [discriminate|]. rewrite digit_step in H. cbn [parse_digits].
  destruct (digit_val c); auto. destruct (_ <=? _)%N; auto.
Qed.
Lemma digits_too_large lim p : forall acc t n, p <> ""%string -> digits (Z.of_N acc) p = Some n -> (n > Z.of_N lim)%Z ->
  parse_digits lim acc (p ++ t) = None.
Proof.
  induction p as [|c p IH]; intros acc t n Hp H Hn; [congruence|]. rewrite digit_step in H. cbn [append parse_digits].
  destruct (digit_val c) as [v|]; auto. destruct (N.leb_spec (acc * 10 + v) lim) as [HL|HL]; auto.
  destruct p as [|c' p]; [cbn in H; injection H as <-; lia|]. eapply IH; eauto. discriminate.
Qed.
Definition plain_head (s : string) : Prop := forall t, s <> String "+"%char t.
Lemma value_plain s : plain_head s -> value s = number s.
Proof.
  intros H. unfold value. destruct s as [|[[] [] [] [] [] [] [] []] t]; auto. destruct (H t). reflexivity.
Qed.
Lemma parse_plain s : plain_head s -> s <> ""%string -> parse_usize s = parse_digits usize_max 0 s /\ parse_error s = digits_error usize_max 0 s.
Proof.
  intros H HN. unfold parse_usize, parse_unsigned, parse_error. destruct s as [|c t]; [congruence|].
  specialize (H t). destruct c as [[] [] [] [] [] [] [] []]; auto; exfalso; apply H; reflexivity.
Qed.
Lemma number_digits s : s <> ""%string -> number s = digits (Z.of_N 0) s.
Proof. destruct s; [congruence|auto]. Qed.
Lemma plus_or s : (exists t, s = String "+"%char t) \/ plain_head s.
Proof.
  destruct s as [|c t]; [right; discriminate|]. destruct (ascii_dec c "+") as [->|HN]; [eauto|]. right. intros u E. congruence.
Qed.
Lemma usize_z : Z.of_N usize_max = 18446744073709551615%Z. Proof. reflexivity. Qed.
Opaque usize_max.
Lemma number_fault r a : a_kind a = AInteger -> parse_usize (a_name a) = None -> side_fault r a (parse_error (a_name a)).
Proof.
  intros HK HP. remember (a_name a) as s eqn:ES. symmetry in ES.
  destruct (string_dec s "") as [E|HN].
  { rewrite E in *. cbn. apply sf_empty; auto. }
  destruct (plus_or s) as [(t & E)|HH].
  - rewrite E in HP |- *. cbn [parse_error]. destruct (string_dec t "") as [E2|HT].
    + rewrite E2. apply sf_digit; auto; rewrite ES; [auto|]. rewrite E, E2. reflexivity.
    + assert (HP' : parse_digits usize_max 0 t = None) by (destruct t; [congruence|exact HP]).
      assert (EE : parse_error (String "+" t) = digits_error usize_max 0 t) by (destruct t; [congruence|reflexivity]).
      change (match t with EmptyString => _ | _ => _ end) with (parse_error (String "+" t)). rewrite EE.
      destruct (digits_fail _ _ _ HP') as [[D ->]|(p & u & n & EU & Hp & D & Hn & ->)].
      * apply sf_digit; auto; rewrite ES; auto. rewrite E. cbn [value]. rewrite number_digits; auto.
      * rewrite usize_z in Hn. apply sf_large with (String "+" p) u n; auto; [rewrite ES, E, EU; reflexivity|].
        cbn [value]. rewrite number_digits; auto.
  - destruct (parse_plain s HH HN) as [EP EE]. rewrite EP in HP. rewrite EE.
    destruct (digits_fail _ _ _ HP) as [[D ->]|(p & u & n & EU & Hp & D & Hn & ->)].
    + apply sf_digit; auto; rewrite ES; auto. rewrite value_plain, number_digits; auto.
    + rewrite usize_z in Hn. apply sf_large with p u n; auto; [congruence|].
      rewrite value_plain, number_digits; auto. intros t E. apply (HH (t ++ u)%string). rewrite EU, E. reflexivity.
Qed.
Lemma number_bad s : s = ""%string \/ value s = None \/ (exists p t n, s = (p ++ t)%string /\ value p = Some n /\ (n > 18446744073709551615)%Z) ->
  parse_usize s = None.
Proof.
  intros H. destruct (string_dec s "") as [->|HN]; [reflexivity|].
  destruct (plus_or s) as [(t & ->)|HH].
  - destruct (string_dec t "") as [->|HT]; [reflexivity|].
    assert (EP : parse_usize (String "+" t) = parse_digits usize_max 0 t) by (destruct t; [congruence|reflexivity]). rewrite EP.
    destruct H as [H|[H|(p & u & n & E & D & Hn)]]; [discriminate| |].
    + cbn [value] in H. rewrite number_digits in H by auto. apply digits_bad; auto.
    + destruct p as [|c p]; [discriminate|]. cbn in E. injection E as <- ->. cbn [value] in D.
      destruct (string_dec p "") as [->|Hp]; [discriminate|]. rewrite number_digits in D by auto. eapply digits_too_large; eauto.
  - destruct (parse_plain s HH HN) as [-> _]. destruct H as [H|[H|(p & u & n & -> & D & Hn)]]; [congruence| |].
    + rewrite value_plain, number_digits in H by auto. apply digits_bad; auto.
    + assert (HP : plain_head p). { intros t E. apply (HH (t ++ u)%string). rewrite E. reflexivity. }
      rewrite value_plain in D by auto. destruct (string_dec p "") as [->|Hp]; [discriminate|]. rewrite number_digits in D by auto.
      eapply digits_too_large; eauto.
Qed.

(** ** Sides *)
Lemma block_names p off : map ch_name (block off p) = map (listed_as (p_name p)) (seq 0 (copies p)).
Proof. unfold block. rewrite map_map. apply map_ext. intros k. reflexivity. Qed.
Lemma blocks_names ps : forall off, map ch_name (blocks off ps) = flat_map (fun q => map (listed_as (p_name q)) (seq 0 (copies q))) ps.
Proof. induction ps as [|p t IH]; intros off; cbn [blocks flat_map map]; auto. rewrite map_app, block_names, IH. reflexivity. Qed.
Lemma slots_names r : map sl_name (build_slots r) = slot_names r.
Proof. unfold build_slots, slot_names. destruct (r_slots r); reflexivity. Qed.
Lemma follow_parts_bad ps i p : nth_error ps i = Some p -> forall q k j, j < copies p -> copies p <= j + k ->
  follow_parts q (blocks 0 ps) (first_index ps i + j) k = Err (msg_no_part q).
Proof.
  intros Hp q. induction k as [|k IH]; intros j Hj Hk; cbn [follow_parts]; [lia|].
  rewrite (proj2 (get_ok _ _ _) (blocks_nth ps 0 i j p Hp ltac:(lia))). cbn [bind mk_part ch_cont].
  destruct (Nat.ltb_spec (j + 1) (copies p)); auto.
  replace (0 + first_index ps i + j + 1) with (first_index ps i + (j + 1)) by lia. apply IH; lia.
Qed.
Definition looked_up (a : accessor) : Prop := by_name a \/ a_kind a = AInteger.
Definition names_in (x : ctx) (a : accessor) : list string :=
  match a_kind a with
  | ASlot => map sl_name (x_slots x) | AChoice => map ch_name (x_choices x) | AChooser => map cs_name (x_choosers x) | _ => [] end.
Lemma names_in_ctx r x a : ctx_of r x -> names_in x a = declared_names r a.
Proof.
  intros CX. unfold names_in, declared_names. rewrite (co_slots _ _ CX), (co_choices _ _ CX), (co_choosers _ _ CX), slots_names, blocks_names.
  reflexivity.
Qed.
Lemma found r x a l : ctx_of r x -> refers r a l <-> l = fuzzy_find (a_name a) (names_in x a).
Proof.
  intros CX. unfold refers. rewrite <- (names_in_ctx r x a CX). split; [|intros ->; apply fuzzy_best].
  intros H. eapply best_unique; [exact H|apply fuzzy_best].
Qed.
(** How a name is resolved, by what it refers to. *)
Lemma resolve_by r x a l : ctx_of r x -> by_name a -> refers r a l ->
  resolve_accessor x a =
    match l with
    | [] => Ok None
    | [c] => if match a_kind a with AChoice => true | _ => false end
             then let* c' := follow_parts (a_part a) (x_choices x) c (a_part a) in Ok (Some (N.of_nat c'))
             else Ok (Some (N.of_nat c))
    | _ => Err (msg_ambiguous (a_name a))
    end.
Proof.
  intros CX Hn HR. apply (found r x a l CX) in HR. unfold names_in in HR. unfold resolve_accessor, find_name.
  destruct Hn as [E|[E|E]]; rewrite E in HR |- *; rewrite <- HR; destruct l as [|c [|c' l]]; reflexivity.
Qed.
Lemma part_num k : 1 <= k -> decimal k (n_to_string (N.of_nat k)).
Proof. intros H. replace k with ((k - 1) + 1) by lia. apply decimal_n. Qed.
Lemma resolve_fault r x a m : ctx_of r x -> looked_up a -> resolve_accessor x a = Err m -> side_fault r a m.
Proof.
  intros CX [Hn|HK] H.
  - assert (HR : refers r a (fuzzy_find (a_name a) (names_in x a))) by (apply (found r x a _ CX); auto).
    revert HR. generalize (fuzzy_find (a_name a) (names_in x a)). intros l HR. rewrite (resolve_by r x a l CX Hn HR) in H.
    destruct l as [|c [|c' l]]; [discriminate| |].
    + destruct (a_kind a) eqn:EK; try discriminate H.
      destruct (follow_parts _ _ _ _) as [c'|m'|] eqn:EF; cbn [bind] in H; try discriminate. injection H as ->.
      rewrite (co_choices _ _ CX) in EF.
      assert (HL : c < first_index (r_choices r) (length (r_choices r))).
      { apply (found r x a _ CX) in HR. assert (HI : In c (fuzzy_find (a_name a) (names_in x a))) by (rewrite <- HR; left; auto).
        apply fuzzy_find_lt in HI. unfold names_in in HI. rewrite EK, map_length, (co_choices _ _ CX), blocks_length in HI. auto. }
      destruct (part_exists _ _ HL) as (i & k & HPt). pose proof HPt as (q & Hq & Hk & ->).
      destruct (Nat.le_gt_cases (copies q) (k + a_part a)) as [HB|HB].
      * rewrite (follow_parts_bad _ _ _ Hq) in EF by auto. injection EF as <-.
        eapply sf_part with (num := n_to_string (N.of_nat (a_part a))); eauto. apply part_num. lia.
      * rewrite (follow_parts_spec _ _ _ Hq) in EF by auto. discriminate.
    + injection H as <-. eapply sf_ambiguous; eauto. cbn; lia.
  - unfold resolve_accessor in H. rewrite HK in H. destruct (parse_usize _) eqn:E; [discriminate|]. injection H as <-. apply number_fault; auto.
Qed.
Lemma fault_resolve r x a m : ctx_of r x -> side_fault r a m -> exists m', resolve_accessor x a = Err m'.
Proof.
  intros CX H. inversion H as [l Hn HR HL E|c i k q num HK HR Hq HPt HB HD E|HK HE|HK HN HV|s t n HK HE HV HB]; clear H.
  - rewrite (resolve_by r x a l CX Hn HR). destruct l as [|? [|? ?]]; cbn in HL; try lia. eauto.
  - rewrite (resolve_by r x a [c] CX) by (auto; right; left; auto). rewrite HK. destruct HPt as (q' & Hq' & Hk & ->).
    assert (q' = q) by congruence. subst q'. rewrite (co_choices _ _ CX), (follow_parts_bad _ _ _ Hq) by auto. cbn [bind]. eauto.
  - unfold resolve_accessor. rewrite HK, number_bad; eauto.
  - unfold resolve_accessor. rewrite HK, number_bad; eauto.
  - unfold resolve_accessor. rewrite HK, number_bad; eauto 8.
Qed.

(** ** Constraints *)
Lemma form_sides e : form (shape (e_left e)) (e_rel e) (shape (e_right e)) -> by_name (e_left e) /\ looked_up (e_right e).
Proof.
  unfold shape, looked_up, by_name. intros H.
  inversion H; subst; repeat match goal with E : _ = a_kind _ |- _ => symmetry in E end; tauto.
Qed.
Lemma add_fault r x e k ex m : ctx_of r x -> by_name (e_left e) -> looked_up (e_right e) -> add_constraint x e k ex = Err m ->
  side_fault r (e_right e) m \/ side_fault r (e_left e) m.
Proof.
  intros CX HL HR. unfold add_constraint. intros H.
  assert (T : forall t : option target, (match t with
      | None => Ok []
      | Some t => let* l := resolve_accessor x (e_left e) in
           match l with None => Ok [] | Some n => Ok [mkC k (N.to_nat n) t ex] end
      end) = Err m -> side_fault r (e_right e) m \/ side_fault r (e_left e) m).
  { intros [t|] H'; [|discriminate]. destruct (resolve_accessor x (e_left e)) as [[n|]| |] eqn:E; cbn in H'; try discriminate.
    injection H' as ->. right. eapply resolve_fault; eauto. left; auto. }
  destruct (a_kind (e_right e)) eqn:EK; try (exact (T (Some TNone) H));
    destruct (resolve_accessor x (e_right e)) as [rr| |] eqn:ER; cbn [bind] in H; try discriminate;
    try (injection H as ->; left; eapply resolve_fault; eauto; fail); try (eapply T; exact H).
  destruct rr as [n|]; cbn [expect bind] in H; [|discriminate]. destruct (n <=? u32_max)%N; [|discriminate].
  exact (T (Some (TLimit n)) H).
Qed.
Lemma add_accepted r x e k ex l m : ctx_of r x -> by_name (e_left e) -> looked_up (e_right e) -> add_constraint x e k ex = Ok l ->
  ~ side_fault r (e_right e) m /\ (side_fault r (e_left e) m -> by_name (e_right e) /\ refers r (e_right e) []).
Proof.
  intros CX HL HR H. unfold add_constraint in H. apply bind_ok in H as (rt & HT & H).
  assert (OK : exists v, resolve_accessor x (e_right e) = Ok v).
  { destruct (a_kind (e_right e)) eqn:EK; try (apply bind_ok in HT as (v & Hv & _); eauto).
    all: exfalso; destruct HR as [[E|[E|E]]|E]; congruence. }
  destruct OK as (v & Hv). split.
  - intros HF. destruct (fault_resolve r x _ m CX HF) as (m' & E). congruence.
  - intros HF. destruct (fault_resolve r x _ m CX HF) as (m' & E). destruct rt as [t|]; [rewrite E in H; discriminate|]. clear H.
    rewrite Hv in HT. destruct HR as [HN|HK].
    + split; auto. assert (HR : refers r (e_right e) (fuzzy_find (a_name (e_right e)) (names_in x (e_right e)))) by (apply (found r x _ _ CX); auto).
      revert HR. generalize (fuzzy_find (a_name (e_right e)) (names_in x (e_right e))). intros ll HR.
      rewrite (resolve_by r x _ ll CX HN HR) in Hv. destruct ll as [|c [|c' ll]]; auto; [|discriminate]. exfalso.
      assert (v <> None). { destruct (match a_kind (e_right e) with AChoice => true | _ => false end).
        - apply bind_ok in Hv as (c' & _ & Hv). congruence.
        - congruence. }
      destruct HN as [E1|[E1|E1]]; rewrite E1 in HT; cbn [bind] in HT; injection HT as HT; destruct v; cbn in HT; congruence.
    + rewrite HK in HT. cbn [bind] in HT. apply bind_ok in HT as (n & _ & HT). destruct (n <=? u32_max)%N; discriminate.
Qed.
Lemma supported_dec e : (exists k ex, table e = Some (k, ex) /\ form (shape (e_left e)) (e_rel e) (shape (e_right e))) \/
  (table e = None /\ exists k ex, table (swap_sides e) = Some (k, ex) /\ form (shape (e_right e)) (e_rel e) (shape (e_left e))) \/
  (table e = None /\ table (swap_sides e) = None /\ ~ supported e).
Proof.
  destruct (table e) as [[k ex]|] eqn:E.
  - left. exists k, ex. split; auto. apply table_form. eauto.
  - right. destruct (table (swap_sides e)) as [[k ex]|] eqn:E2.
    + left. split; auto. exists k, ex. split; auto. apply (table_form (swap_sides e)). eauto.
    + right. split; auto. split; auto. intros [H|H].
      * apply table_form in H as (kx & H). congruence.
      * apply (table_form (swap_sides e)) in H as (kx & H). congruence.
Qed.
Lemma expr_rejected r x e m : ctx_of r x -> build_expr x e = Err m -> expr_fault r e m.
Proof.
  intros CX H. unfold build_expr in H. destruct (supported_dec e) as [(k & ex & E & HF)|[(E0 & k & ex & E & HF)|(E0 & E & HN)]].
  - rewrite E in H. destruct (form_sides e HF) as [HL HR].
    destruct (add_fault r x e k ex m CX HL HR H) as [F|F]; eapply ef_side; eauto; try (left; exact HF).
    + right; eauto. + left; eauto.
  - rewrite E0, E in H. destruct (form_sides (swap_sides e) HF) as [HL HR].
    destruct (add_fault r x (swap_sides e) k ex m CX HL HR H) as [F|F]; cbn in F; eapply ef_side; eauto; try (right; exact HF).
    + left; eauto. + right; eauto.
  - rewrite E0, E in H. injection H as <-. apply ef_form; auto.
Qed.
Lemma expr_accepted r x e l : ctx_of r x -> build_expr x e = Ok l -> supported e /\ forall m, expr_fault r e m -> void r e.
Proof.
  intros CX H. unfold build_expr in H. destruct (supported_dec e) as [(k & ex & E & HF)|[(E0 & k & ex & E & HF)|(E0 & E & HN)]].
  - rewrite E in H. destruct (form_sides e HF) as [HL HR]. split; [left; auto|]. intros m F.
    pose proof (add_accepted r x e k ex l) as AA. inversion F as [HN|a b m' _ HS HF' E']; subst; [destruct HN; left; auto|].
    destruct (AA m CX HL HR H) as [A1 A2]. destruct HS as [[<- <-]|[<- <-]].
    + destruct (A2 HF'). exists (e_right e), (e_left e). split; [right; auto|]. auto.
    + contradiction.
  - rewrite E0, E in H. destruct (form_sides (swap_sides e) HF) as [HL HR]. split; [right; auto|]. intros m F.
    pose proof (add_accepted r x (swap_sides e) k ex l) as AA. inversion F as [HN|a b m' _ HS HF' E']; subst; [destruct HN; right; auto|].
    destruct (AA m CX HL HR H) as [A1 A2]. cbn in A1, A2. destruct HS as [[<- <-]|[<- <-]].
    + contradiction.
    + destruct (A2 HF'). exists (e_left e), (e_right e). split; [left; auto|]. auto.
  - rewrite E0, E in H. discriminate.
Qed.
Lemma void_dec r x e : ctx_of r x -> void r e \/ ~ void r e.
Proof.
  intros CX. assert (D : forall a, (by_name a /\ refers r a []) \/ ~ (by_name a /\ refers r a [])).
  { intros a. destruct (fuzzy_find (a_name a) (names_in x a)) as [|c t] eqn:E.
    - assert (HR : refers r a []) by (apply (found r x a _ CX); auto). unfold by_name.
      destruct (a_kind a) eqn:EK; (left; split; [auto|exact HR]; fail) || (right; intros [[E1|[E1|E1]] _]; congruence).
    - right. intros [_ HR]. apply (found r x a _ CX) in HR. congruence. }
  destruct (D (e_left e)) as [[H1 H2]|H]; [left; exists (e_left e), (e_right e); split; [left|]; auto|].
  destruct (D (e_right e)) as [[H1 H2]|H']; [left; exists (e_right e), (e_left e); split; [right|]; auto|].
  right. intros (a & b & [[<- <-]|[<- <-]] & HV); auto.
Qed.
Lemma mmap_first_err {X Y} (f : X -> outcome Y) l m : mmap f l = Err m ->
  exists l1 y l2, l = l1 ++ y :: l2 /\ f y = Err m /\ forall z, In z l1 -> exists v, f z = Ok v.
Proof.
  induction l as [|a t IH]; cbn; intros H; [discriminate|].
  destruct (f a) eqn:E; cbn [bind] in H.
  - destruct (mmap f t) eqn:E2; cbn in H; try discriminate. destruct (IH H) as (l1 & y & l2 & -> & Hy & HA).
    exists (a :: l1), y, l2. split; auto. split; auto. intros z [<-|Hz]; eauto.
  - injection H as ->. exists [], a, t. repeat split; auto. intros z [].
  - discriminate.
Qed.

(** ** Where errors come from *)
Lemma err_origin pr r m : build_input pr r = Err m ->
  (m = first_wrong r /\ ~ prefs_complete r) \/
  (exists x, ctx_of r x /\ mmap (build_expr x) (r_exprs r) = Err m) \/ m = msg_unsat.
Proof.
  unfold build_input. intros H.
  destruct (build_preferences pr r) as [[mx mc]| |] eqn:Hmc; cbn [bind] in H; [| |discriminate].
  2:{ injection H as <-. left. eapply build_prefs_err; eauto. }
  destruct (build_prefs_ok _ _ _ _ Hmc) as (HC & Em & Emc).
  destruct (compile_choices (r_choices r) mc) as [chs css] eqn:Ecc.
  destruct (compile_spec (r_choices r) mc chs css) as [-> Ecss]; auto.
  { intros c Hc. rewrite Emc in Hc. apply in_map_iff in Hc as (c0 & <- & Hc0). cbn. rewrite map_length. auto. }
  right. destruct (raw_constraints _ _) as [raw| |] eqn:Hraw; cbn [bind] in H; [| |discriminate].
  2:{ injection H as ->. left. eexists. split; [|unfold raw_constraints in Hraw; destruct (mmap _ _) as [bb|m'|] eqn:Eb; cbn [bind] in Hraw;
        [exfalso; revert Hraw; apply bind_no_err; [apply compute_part_no_err|discriminate]|injection Hraw as <-; exact Eb|discriminate]].
      constructor; cbn; auto. rewrite Ecss, Emc, !map_map. apply map_ext. auto. }
  right.
  destruct (reduce_and_optimize raw _) as [[cs inf]| |] eqn:Hred; cbn [bind] in H; [|exfalso; eapply reduce_no_err; eauto|discriminate].
  destruct inf; [injection H as <-; auto|]. exfalso. revert H.
  apply bind_no_err.
  { unfold get_dependent_limits. apply bind_no_err; [apply uf_new_no_err|]. intros u. apply bind_no_err; [apply join_same_no_err|].
    intros u'. apply bind_no_err.
    - apply mfold_no_err. intros b z m0. apply bind_no_err; [apply uf_find_no_err|]. intros g. apply bind_no_err; [apply get_no_err|].
      intros l. apply bind_no_err; [apply get_no_err|]. intros; apply set_no_err.
    - intros lim. apply mfold_no_err. intros b z m0. apply bind_no_err; [apply uf_find_no_err|]. intros g. apply bind_no_err; [apply get_no_err|].
      intros; apply set_no_err. }
  intros limits. apply bind_no_err.
  { unfold get_dependent_prefs. apply bind_no_err; [apply get_dependent_no_err|]. intros gs. apply bind_no_err.
    - apply mmap_no_err. intros c _. apply mfold_no_err. intros b z m0. unfold group_min. apply bind_no_err.
      + apply mmap_no_err. intros; apply get_no_err.
      + intros vs. apply mfold_no_err. intros; apply set_no_err.
    - intros prefs. apply mfold_no_err. intros b z m0. destruct (kind_eqb _ _); [|discriminate].
      apply bind_no_err; [apply con_other_no_err|]. intros o. apply bind_no_err; [apply get_no_err|]. intros row.
      apply bind_no_err; [apply set_no_err|]. intros; apply set_no_err. }
  intros prefs. apply bind_no_err; [apply get_dependent_no_err|]. intros gs. apply bind_no_err; [|discriminate].
  unfold build_maps. apply mfold_no_err. intros [cm pm] k m0.
  assert (PA : forall q i kk mm, push_at q i kk <> Err mm).
  { intros. unfold push_at. apply bind_no_err; [apply get_no_err|]. intros; apply set_no_err. }
  unfold map_one. destruct (c_kind k); try discriminate;
    try (apply bind_no_err; [apply PA|]; intros; try discriminate; apply bind_no_err; [apply con_other_no_err|]; intros;
         apply bind_no_err; [apply PA|discriminate]);
    try (apply bind_no_err; [apply PA|discriminate]);
    try (apply bind_no_err; [apply mfold_no_err; intros; apply PA|discriminate]).
  apply bind_no_err; [apply PA|]. intros. apply bind_no_err; [unfold con_other_chooser; destruct (c_right k); discriminate|]. intros.
  apply bind_no_err; [apply PA|discriminate].
Qed.

(** ** C87: a rejected input is rejected for a fault it has, and the message says
    which one: the first chooser without the right number of preferences, the
    first faulty constraint with the offending name, part or number, or constraints
    that no arrangement satisfies. *)
Theorem C87_rejections_name_a_fault :
  forall (pr : profile) (r : reader) (m : string), build_input pr r = Err m -> fault r m.
Proof.
  intros pr r m H. destruct (err_origin pr r m H) as [[-> HN]|[(x & CX & HE)|E]].
  - unfold first_wrong. destruct (find _ _) as [c|] eqn:EF.
    + assert (X : exists i, nth_error (r_choosers r) i = Some c /\ length (cs_prefs c) <> length (r_choices r) /\
                 forall j c', j < i -> nth_error (r_choosers r) j = Some c' -> length (cs_prefs c') = length (r_choices r)).
      { clear -EF. induction (r_choosers r) as [|c0 t IH]; cbn [find] in EF; [discriminate|].
        destruct (Nat.eqb_spec (length (cs_prefs c0)) (length (r_choices r))) as [E|E]; cbn [negb] in EF.
        - destruct (IH EF) as (i & H1 & H2 & H3). exists (Datatypes.S i). repeat split; auto. intros [|j] c' Hj Hc'; cbn in Hc'; [congruence|].
          apply (H3 j); auto; lia.
        - injection EF as <-. exists 0. repeat split; auto. intros j c' Hj; lia. }
      destruct X as (i & H1 & H2 & H3). eapply fa_prefs; eauto.
    + exfalso. apply HN. intros c Hc. pose proof (find_none _ _ EF c Hc) as X. cbn in X. apply negb_false_iff in X. apply Nat.eqb_eq in X. auto.
  - destruct (mmap_first_err _ _ _ HE) as (es1 & e & es2 & E & Ee & HA).
    eapply fa_expr; eauto; [eapply expr_rejected; eauto|]. intros e' He'. destruct (HA _ He') as (v & Hv).
    destruct (expr_accepted r x e' v CX Hv) as [HS HF]. split; auto. destruct (void_dec r x e' CX) as [V|V]; auto.
    right. intros m' F. apply V. eauto.
  - subst m. apply fa_unsat. intros HS S A HU HA. apply (unsat_true pr r S A H); auto.
    intros e He a Ha HK. destruct Ha as [->| ->]; [eapply (HS e (e_left e) (e_right e))|eapply (HS e (e_right e) (e_left e))]; auto; [left|right]; auto.
Qed.
Print Assumptions C87_rejections_name_a_fault.

(** Conversely, an accepted input has the right number of preferences everywhere,
    constraints of supported forms only, and no faulty side, except in constraints
    that are ignored anyway since one of their names means nothing. *)
Theorem C87_accepted_inputs_have_no_fault :
  forall (pr : profile) (r : reader) (d : input_data), build_input pr r = Ok d ->
    (forall c, In c (r_choosers r) -> length (cs_prefs c) = length (r_choices r)) /\
    (forall e, In e (r_exprs r) -> supported e /\ forall m, expr_fault r e m -> void r e).
Proof.
  intros pr r d H. destruct (build_inv _ _ _ H) as (raw & cs & css & B). split.
  - unfold build_input in H. apply bind_ok in H as ([m mc] & Hmc & _). apply (build_prefs_ok _ _ _ _ Hmc).
  - intros e He. destruct (T_Names.expr_built _ _ _ _ _ _ B e He) as (v & Hv). eapply expr_accepted; eauto. eapply b_ctx; eauto.
Qed.
Print Assumptions C87_accepted_inputs_have_no_fault.

(** Witnesses: one input per kind of fault. *)
Import T_Input.
Open Scope string_scope.
Definition r87 (choosers : list chooser_data) (es : list expr) : reader :=
  mkReader [mkSlot "Monday am"; mkSlot "Monday pm"] [mkProto "a" 0 2 2 false; mkProto "b" 0 2 1 false] choosers es.
Definition p87 : list chooser_data := [mkChooser "Ann" [1; 2]%N; mkChooser "Bob" [3; 0]%N].
Example C87_rejected_witness :
  build_input Debug (r87 (p87 ++ [mkChooser "Cem" [1]%N; mkChooser "Dan" []]) []) = Err "Wrong number of preferences given for chooser ""Cem""." /\
  build_input Debug (r87 p87 [mkE (acc_choice "a" ASlot 0) REq (acc_slot "Monday" ANotSet)]) = Err "The name ""Monday"" is ambiguous." /\
  build_input Debug (r87 p87 [mkE (acc_choice "a" ASlot 1) REq (acc_slot "pm" ANotSet); mkE (acc_choice "b" ASlot 1) REq (acc_slot "pm" ANotSet)])
    = Err "The given choice doesn't have a part 1." /\
  build_input Debug (r87 p87 [mkE (acc_slot "am" ASize) RGeq (acc_int "-1")]) = Err "invalid digit found in string" /\
  build_input Debug (r87 p87 [mkE (acc_slot "am" ASize) RContains (acc_int "1")]) = Err "Unsupported constraint." /\
  build_input Debug (r87 p87 [mkE (acc_slot "am" AChoice) REq (acc_slot "pm" AChoice)]) = Err "The given constraints are not satisfiable.".
Proof. repeat split; vm_compute; reflexivity. Qed.
Example C87_accepted_witness : exists d,
  build_input Debug (r87 p87 [mkE (acc_choice "a" ASlot 1) REq (acc_slot "pm" ANotSet);
                              mkE (acc_slot "Monday" AChoice) RContains (acc_choice "zzz" ANotSet 0)]) = Ok d /\ i_sched d <> [] /\
  void (r87 p87 []) (mkE (acc_slot "Monday" AChoice) RContains (acc_choice "zzz" ANotSet 0)).
Proof.
  eexists. split; [vm_compute; reflexivity|]. split; [discriminate|].
  eexists (acc_choice "zzz" ANotSet 0), _. split; [right; split; reflexivity|]. split; [right; left; reflexivity|].
  unfold refers. change (@nil nat) with (fuzzy_find "zzz" (declared_names (r87 p87 []) (acc_choice "zzz" ANotSet 0))). apply fuzzy_best.
Qed.
(** C71 on rejected inputs: the message differs in the chooser's name. *)
Example C71_rejected_witness :
  let r := mkReader [] [mkProto "a" 0 2 1 false] [mkChooser "Ann" [1; 2]%N] [] in
  let r' := mkReader [] [mkProto "x" 0 2 1 false] [mkChooser "Zoe" [1; 2]%N] [] in
  renamed r r' /\ clear_names r /\ clear_names r' /\
  build_input Debug r = Err "Wrong number of preferences given for chooser ""Ann""." /\
  build_input Debug r' = Err "Wrong number of preferences given for chooser ""Zoe"".".
Proof.
  assert (C : forall n n', clear_names (mkReader [] [mkProto n 0 2 1 false] [mkChooser n' [1; 2]%N] [])).
  { intros n n'. constructor.
    - intros [|i] [|j] m (s & Hs & _); discriminate Hs || (destruct i; discriminate Hs).
    - intros [|i] [|j] m (s & Hs & _) (t & Ht & _); auto; try (destruct i; discriminate Hs); destruct j; discriminate Ht.
    - intros [|i] [|j] m m' k (s & Hs & _) (t & Ht & _) HK _; try (destruct i; discriminate Hs); try (destruct j; discriminate Ht).
      split; auto. specialize (HK t Ht). injection Ht as <-. change (k < 1) in HK. lia. }
  cbn zeta. split; [constructor; cbn; auto|]. split; [apply C|]. split; [apply C|]. split; vm_compute; reflexivity.
Qed.
