(** Name resolution, integers, and the constraints built from expressions. *)
From Verif Require Import Base M_Data Spec M_Union M_Names M_Build Spec_Input P_Union P_Scoring P_Con P_Compile.
From Coq Require Import String Ascii DecimalString.
From Coq Require DecimalPos DecimalN.
Notation length := Datatypes.length.
Notation get := Base.get.

(** ** Index filters *)
Lemma idx_filter_in {A} (f : A -> bool) l : forall off i,
  In i (idx_filter f off l) <-> off <= i /\ exists x, nth_error l (i - off) = Some x /\ f x = true.
Proof.
  induction l as [|a t IH]; intros off i; cbn [idx_filter].
  - split; [intros []|]. intros (_ & x & H & _). destruct (i - off); discriminate.
  - assert (G : In i (idx_filter f (S off) t) <-> S off <= i /\ exists x, nth_error (a :: t) (i - off) = Some x /\ f x = true).
    { rewrite IH. split; intros (H & x & Hx & Hf); (split; [lia|]); exists x; split; auto.
      - replace (i - off) with (S (i - S off)) by lia. exact Hx.
      - replace (i - off) with (S (i - S off)) in Hx by lia. exact Hx. }
    destruct (f a) eqn:E.
    + cbn [In]. rewrite G. split.
      * intros [->|(H & K)]; [|split; [lia|auto]]. split; [lia|]. exists a. rewrite Nat.sub_diag. auto.
      * intros (H & K). destruct (Nat.eq_dec off i); auto. right. split; [lia|auto].
    + rewrite G. split; intros (H & K); [split; [lia|auto]|]. split; auto.
      destruct (Nat.eq_dec off i) as [->|]; [|lia]. rewrite Nat.sub_diag in K. destruct K as (x & Hx & Hf).
      cbn in Hx. congruence.
Qed.

Lemma idx_filter_lt {A} (f : A -> bool) l i : In i (idx_filter f 0 l) -> i < length l.
Proof.
  intros H. apply idx_filter_in in H as (_ & x & Hx & _). rewrite Nat.sub_0_r in Hx.
  apply nth_error_lt in Hx. auto.
Qed.

Lemma find_exact_in key vs i : In i (find_exact key vs) <-> nth_error vs i = Some key.
Proof.
  unfold find_exact. rewrite idx_filter_in. rewrite Nat.sub_0_r. split.
  - intros (_ & x & Hx & E). apply String.eqb_eq in E. congruence.
  - intros H. split; [lia|]. exists key. split; auto. apply String.eqb_refl.
Qed.

Lemma fuzzy_find_lt key vs i : In i (fuzzy_find key vs) -> i < length vs.
Proof.
  unfold fuzzy_find. intros H.
  destruct (find_exact key vs) eqn:E1; [|rewrite <- E1 in H; exact (idx_filter_lt _ _ _ H)].
  destruct (find_by_token key vs true) eqn:E2; [|rewrite <- E2 in H; exact (idx_filter_lt _ _ _ H)].
  destruct (find_by_token key vs false) eqn:E3; [|rewrite <- E3 in H; exact (idx_filter_lt _ _ _ H)].
  exact (idx_filter_lt _ _ _ H).
Qed.

Lemma fuzzy_find_exact key vs i : nth_error vs i = Some key -> fuzzy_find key vs = find_exact key vs.
Proof.
  intros H. unfold fuzzy_find. apply find_exact_in in H. destruct (find_exact key vs); [destruct H|auto].
Qed.

Lemma find_name_lt name vs i : find_name name vs = Ok (Some i) -> i < length vs.
Proof.
  unfold find_name. destruct (fuzzy_find name vs) as [|j [|]] eqn:E; intros H; try discriminate.
  injection H as ->. apply (fuzzy_find_lt name). rewrite E. left; auto.
Qed.
Lemma find_name_no_panic name vs : find_name name vs <> Panic.
Proof. unfold find_name. destruct (fuzzy_find name vs) as [|j [|]]; discriminate. Qed.

(** An exactly matching name that resolves at all resolves to that object. *)
Lemma find_name_exact name vs i r : nth_error vs i = Some name -> find_name name vs = Ok r -> r = Some i.
Proof.
  intros Hi. unfold find_name. rewrite (fuzzy_find_exact _ _ _ Hi).
  apply find_exact_in in Hi. destruct (find_exact name vs) as [|j [|]]; intros H; try discriminate.
  - destruct Hi.
  - injection H as <-. destruct Hi as [->|[]]. auto.
Qed.

(** ** Continuations *)
Lemma follow_parts_lt cs : cont_ok cs -> forall q k c c', c < length cs -> follow_parts q cs c k = Ok c' -> c' < length cs.
Proof.
  intros HC q. induction k as [|k IH]; intros c c' Hc H; cbn in H.
  - injection H as <-; auto.
  - apply bind_ok in H as (cd & Hcd & H). apply get_ok in Hcd. destruct (ch_cont cd) as [n|] eqn:E; [|discriminate].
    apply (IH n); auto. eapply HC; eauto.
Qed.
Lemma follow_parts_no_panic cs : cont_ok cs -> forall q k c, c < length cs -> follow_parts q cs c k <> Panic.
Proof.
  intros HC q. induction k as [|k IH]; intros c Hc; cbn; [discriminate|].
  destruct (nth_error cs c) as [cd|] eqn:E; [|apply nth_error_None in E; lia].
  rewrite (proj2 (get_ok _ _ _) E). cbn [bind]. destruct (ch_cont cd) as [n|] eqn:En; [|discriminate].
  apply IH. eapply HC; eauto.
Qed.
Lemma follow_parts_spec ps i p : nth_error ps i = Some p -> forall q k j, j + k < copies p ->
  follow_parts q (blocks 0 ps) (first_index ps i + j) k = Ok (first_index ps i + (j + k)).
Proof.
  intros Hp q. induction k as [|k IH]; intros j Hk; cbn [follow_parts].
  - rewrite Nat.add_0_r. auto.
  - rewrite (proj2 (get_ok _ _ _) (blocks_nth ps 0 i j p Hp ltac:(lia))). cbn [bind mk_part ch_cont].
    destruct (Nat.ltb_spec (j + 1) (copies p)); [|lia].
    replace (0 + first_index ps i + j + 1) with (first_index ps i + (j + 1)) by lia.
    rewrite IH by lia. f_equal. lia.
Qed.

(** ** Integers *)
Lemma parse_digits_pos lim d : forall a n,
  parse_digits lim (N.pos a) (NilEmpty.string_of_uint d) = Some n -> n = N.pos (Pos.of_uint_acc d a).
Proof.
  induction d; intros a n; cbn [NilEmpty.string_of_uint parse_digits]; intros H;
    [injection H as <-; reflexivity|..];
    match type of H with
    | match digit_val ?c with _ => _ end = _ => let v := eval vm_compute in (digit_val c) in change (digit_val c) with v in H
    end; cbn iota beta in H;
    match type of H with (if (?x <=? _)%N then _ else _) = _ => destruct (x <=? lim)%N; [|discriminate] end;
    match type of H with
    | parse_digits _ ?x _ = _ =>
        match goal with |- _ = N.pos (Pos.of_uint_acc _ _) => cbn [Pos.of_uint_acc] end;
        match goal with |- _ = N.pos (Pos.of_uint_acc _ ?y) => replace x with (N.pos y) in H by (clear; cbn [N.mul N.add]; f_equal; lia) end
    end; apply IHd; exact H.
Qed.

Lemma parse_digits_zero lim d : forall n,
  parse_digits lim 0 (NilEmpty.string_of_uint d) = Some n -> n = Pos.of_uint d.
Proof.
  induction d; intros n; cbn [NilEmpty.string_of_uint parse_digits]; intros H;
    [injection H as <-; reflexivity|..];
    match type of H with
    | match digit_val ?c with _ => _ end = _ => let v := eval vm_compute in (digit_val c) in change (digit_val c) with v in H
    end; cbn iota beta in H;
    match type of H with (if (?x <=? _)%N then _ else _) = _ => destruct (x <=? lim)%N; [|discriminate] end.
  1: exact (IHd _ H).
  all: match type of H with parse_digits _ ?x _ = _ => let v := eval vm_compute in x in change x with v in H end;
       apply parse_digits_pos in H; exact H.
Qed.

Lemma uint_head_nonplus d : match NilEmpty.string_of_uint d with
                            | String "+" _ => False | _ => True end.
Proof. destruct d; exact I. Qed.

Lemma parse_unsigned_digits lim d n : parse_unsigned lim (NilEmpty.string_of_uint d) = Some n -> n = Pos.of_uint d.
Proof.
  intros H. apply (parse_digits_zero lim). destruct d; try discriminate H; exact H.
Qed.

Lemma parse_usize_z z n : parse_usize (z_to_string z) = Some n -> Z.of_N n = z.
Proof.
  unfold parse_usize, z_to_string. generalize usize_max as lim. intros lim. destruct z as [|p|p].
  - cbn. unfold parse_unsigned. cbn. destruct (0 <=? lim)%N; [|discriminate]. intros H; injection H as <-; reflexivity.
  - cbn [Z.to_int NilZero.string_of_int]. intros H.
    pose proof (DecimalPos.Unsigned.of_to p) as HP.
    destruct (Pos.to_uint p) as [|d|d|d|d|d|d|d|d|d|d] eqn:E; [cbn in HP; discriminate|..];
      unfold NilZero.string_of_uint in H; apply parse_unsigned_digits in H; rewrite HP in H; subst n; reflexivity.
  - cbn [Z.to_int NilZero.string_of_int]. intros H. discriminate H.
Qed.

Lemma parse_digits_le lim s : forall acc n, (acc <= lim)%N -> parse_digits lim acc s = Some n -> (n <= lim)%N.
Proof.
  induction s as [|c t IH]; intros acc n Ha; cbn [parse_digits]; intros H.
  - injection H as <-; auto.
  - destruct (digit_val c); [|discriminate]. destruct (N.leb_spec (acc * 10 + n0) lim); [|discriminate]. eapply IH; eauto.
Qed.

(** ** Expressions: indices in range, no panics *)
Lemma option_map_of_nat_some (i : option nat) n : option_map N.of_nat i = Some n -> i = Some (N.to_nat n).
Proof. destruct i; cbn; [|discriminate]. intros H; injection H as <-. rewrite Nat2N.id. auto. Qed.

Definition acc_count (x : ctx) (a : acc_kind) : nat :=
  match a with ASlot => length (x_slots x) | AChooser => length (x_choosers x)
             | AChoice => length (x_choices x) | _ => 0 end.

Lemma resolve_lt x a n : cont_ok (x_choices x) ->
  (a_kind a = ASlot \/ a_kind a = AChooser \/ a_kind a = AChoice) ->
  resolve_accessor x a = Ok (Some n) -> N.to_nat n < acc_count x (a_kind a).
Proof.
  intros HC HK H. unfold resolve_accessor in H. destruct HK as [E|[E|E]]; rewrite E in *; cbn [acc_count].
  - apply bind_ok in H as (i & Hi & H). injection H as H. apply option_map_of_nat_some in H. subst i.
    apply find_name_lt in Hi. rewrite map_length in Hi. auto.
  - apply bind_ok in H as (i & Hi & H). injection H as H. apply option_map_of_nat_some in H. subst i.
    apply find_name_lt in Hi. rewrite map_length in Hi. auto.
  - apply bind_ok in H as (i & Hi & H). destruct i as [c|]; [|discriminate].
    apply bind_ok in H as (c' & Hc' & H). injection H as <-. rewrite Nat2N.id.
    apply find_name_lt in Hi. rewrite map_length in Hi. eapply follow_parts_lt; eauto.
Qed.

Lemma resolve_no_panic x a : cont_ok (x_choices x) -> resolve_accessor x a <> Panic.
Proof.
  intros HC. unfold resolve_accessor. destruct (a_kind a); try discriminate.
  - pose proof (find_name_no_panic (a_name a) (map cs_name (x_choosers x))). destruct (find_name _ _); cbn; congruence.
  - pose proof (find_name_no_panic (a_name a) (map ch_name (x_choices x))) as HN.
    destruct (find_name _ _) as [i| |] eqn:E; cbn [bind]; try congruence. destruct i as [c|]; [|discriminate].
    apply find_name_lt in E. rewrite map_length in E.
    pose proof (follow_parts_no_panic _ HC (a_part a) (a_part a) c E). destruct (follow_parts _ _ _ _); cbn; congruence.
  - pose proof (find_name_no_panic (a_name a) (map sl_name (x_slots x))). destruct (find_name _ _); cbn; congruence.
  - destruct (parse_usize _); discriminate.
Qed.

(** The target and left index of a built constraint. *)
Definition target_of (k : acc_kind) (n : N) : target :=
  match k with
  | ASlot => TSlot (N.to_nat n) | AChoice => TChoice (N.to_nat n) | AChooser => TChooser (N.to_nat n)
  | AInteger => TLimit n | _ => TNone end.

Definition proper (k : acc_kind) : Prop := match k with ANotSet | ASize => False | _ => True end.

Lemma add_constraint_ok x e k ex l : proper (a_kind (e_right e)) ->
  add_constraint x e k ex = Ok l -> forall c, In c l ->
  exists n m, resolve_accessor x (e_left e) = Ok (Some n) /\ resolve_accessor x (e_right e) = Ok (Some m) /\
    (a_kind (e_right e) = AInteger -> (m <= u32_max)%N) /\
    c = mkC k (N.to_nat n) (target_of (a_kind (e_right e)) m) ex.
Proof.
  unfold add_constraint. intros HP H c Hc. apply bind_ok in H as (rt & Hrt & H).
  destruct rt as [t|]; [|injection H as <-; destruct Hc].
  apply bind_ok in H as (ln & Hl & H). destruct ln as [n|]; [|injection H as <-; destruct Hc].
  injection H as <-. destruct Hc as [<-|[]].
  destruct (a_kind (e_right e)) eqn:EK; cbn in HP; try contradiction;
    apply bind_ok in Hrt as (m & Hm & Hrt);
    [| | |apply bind_ok in Hrt as (m' & Em & Hrt); unfold expect in Em; destruct m as [m0|]; [|discriminate];
          injection Em as ->; destruct (N.leb_spec m' u32_max); [|discriminate]; injection Hrt as <-;
          exists n, m'; repeat split; auto];
    injection Hrt as Hrt; destruct m as [m|]; cbn in Hrt; try discriminate; injection Hrt as <-;
    exists n, m; repeat split; auto; discriminate.
Qed.

(** ... and if both sides resolve then the constraint is there. *)
Lemma add_constraint_there x e k ex l n m : proper (a_kind (e_right e)) ->
  add_constraint x e k ex = Ok l ->
  resolve_accessor x (e_left e) = Ok (Some n) -> resolve_accessor x (e_right e) = Ok (Some m) ->
  In (mkC k (N.to_nat n) (target_of (a_kind (e_right e)) m) ex) l.
Proof.
  unfold add_constraint. intros HP H HL HR. rewrite HL, HR in H.
  destruct (a_kind (e_right e)) eqn:EK; cbn in HP; try contradiction; cbn [bind option_map expect] in H;
    try (injection H as <-; left; reflexivity).
  destruct (m <=? u32_max)%N; [|discriminate]. cbn [bind] in H. injection H as <-. left; reflexivity.
Qed.

Lemma add_constraint_no_panic x e k ex : cont_ok (x_choices x) ->
  (a_kind (e_right e) = AInteger -> forall n, parse_usize (a_name (e_right e)) = Some n -> (n <= u32_max)%N) ->
  add_constraint x e k ex <> Panic.
Proof.
  intros HC HI. unfold add_constraint.
  pose proof (resolve_no_panic x (e_right e) HC) as HR. pose proof (resolve_no_panic x (e_left e) HC) as HL.
  assert (T : forall t : option target, (match t with
      | None => Ok []
      | Some t => let* l := resolve_accessor x (e_left e) in
           match l with None => Ok [] | Some n => Ok [mkC k (N.to_nat n) t ex] end
      end) <> (Panic : outcome (list constraint))).
  { intros [t|]; [|discriminate]. destruct (resolve_accessor x (e_left e)) as [[n|]| |]; cbn; congruence. }
  destruct (a_kind (e_right e)) eqn:EK; try exact (T (Some TNone));
    try (destruct (resolve_accessor x (e_right e)) as [r| |]; cbn [bind]; [apply T|congruence|congruence]).
  unfold resolve_accessor. rewrite EK. destruct (parse_usize (a_name (e_right e))) as [n|] eqn:E; [|discriminate].
  cbn [bind expect]. specialize (HI eq_refl n eq_refl). destruct (N.leb_spec n u32_max); [|lia]. exact (T (Some (TLimit n))).
Qed.

Definition ints_u32 (e : expr) : Prop :=
  forall a n, a = e_left e \/ a = e_right e -> a_kind a = AInteger -> parse_usize (a_name a) = Some n -> (n <= u32_max)%N.

Lemma build_expr_no_panic x e : cont_ok (x_choices x) -> ints_u32 e -> build_expr x e <> Panic.
Proof.
  intros HC HI. unfold build_expr. destruct (table e) as [[k ex]|].
  - apply add_constraint_no_panic; auto. intros EK n Hn. apply (HI (e_right e) n); auto.
  - destruct (table (swap_sides e)) as [[k ex]|]; [|discriminate].
    apply add_constraint_no_panic; auto. cbn. intros EK n Hn. apply (HI (e_left e) n); auto.
Qed.

(** [table] on one fixed shape, as a relation *)
Lemma table_indexed x e k ex l : cont_ok (x_choices x) -> table e = Some (k, ex) ->
  add_constraint x e k ex = Ok l -> forall c, In c l ->
  indexed (length (x_choices x)) (length (x_slots x)) (length (x_choosers x)) c.
Proof.
  intros HC HT H c Hc. destruct e as [[lk ls ln lp] rel [rk rs rn rp]]. unfold table in HT; cbn [e_left e_right e_rel a_kind a_sub] in HT.
  assert (HP : proper rk).
  { destruct lk; try discriminate HT; destruct ls; try discriminate HT; destruct rel; try discriminate HT;
      destruct rk; try discriminate HT; try exact I; destruct rs; discriminate HT. }
  destruct (add_constraint_ok _ _ _ _ _ (HP : proper (a_kind (e_right (mkE (mkA lk ls ln lp) rel (mkA rk rs rn rp))))) H c Hc) as (n & m & HL & HR & HM & ->).
  cbn [e_left e_right a_kind] in *.
  pose proof (resolve_lt x (mkA lk ls ln lp) n HC) as KL. pose proof (resolve_lt x (mkA rk rs rn rp) m HC) as KR.
  destruct lk; try discriminate HT; destruct ls; try discriminate HT; destruct rel; try discriminate HT;
    destruct rk; try discriminate HT; destruct rs; try discriminate HT; injection HT as <- <-;
    specialize (fun h => KL h HL); cbn [a_kind acc_count] in KL;
    unfold indexed; cbn [c_kind c_left c_right c_extra target_of];
    (split; [apply KL; auto| try (apply HM; reflexivity); try (specialize (fun h => KR h HR); cbn [a_kind acc_count] in KR; apply KR; auto)]).
Qed.

Lemma build_expr_indexed x e l : cont_ok (x_choices x) -> build_expr x e = Ok l ->
  forall c, In c l -> indexed (length (x_choices x)) (length (x_slots x)) (length (x_choosers x)) c.
Proof.
  intros HC. unfold build_expr. destruct (table e) as [[k ex]|] eqn:E.
  - apply table_indexed; auto.
  - destruct (table (swap_sides e)) as [[k ex]|] eqn:E'; [|discriminate]. apply table_indexed; auto.
Qed.

(** ** Expressions: meaning *)
(** The context built from a reader. *)
Record ctx_of (r : reader) (x : ctx) : Prop := {
  co_slots : x_slots x = build_slots r;
  co_choices : x_choices x = blocks 0 (r_choices r);
  co_choosers : map cs_name (x_choosers x) = map cs_name (r_choosers r)
}.

Lemma resolve_slot r x a s v : ctx_of r x -> a_kind a = ASlot -> the_slot r a s ->
  resolve_accessor x a = Ok v -> v = Some (N.of_nat s).
Proof.
  intros HX EK (sl & Hs & En) H. unfold resolve_accessor in H. rewrite EK in H.
  apply bind_ok in H as (i & Hi & H). injection H as <-.
  assert (HN : nth_error (map sl_name (x_slots x)) s = Some (a_name a)).
  { rewrite (co_slots _ _ HX). unfold build_slots. destruct (r_slots r) as [|s0 t] eqn:E; [destruct s; discriminate|].
    rewrite nth_error_map, Hs. cbn. congruence. }
  rewrite (find_name_exact _ _ _ _ HN Hi). reflexivity.
Qed.
Lemma resolve_chooser r x a p v : ctx_of r x -> a_kind a = AChooser -> the_chooser r a p ->
  resolve_accessor x a = Ok v -> v = Some (N.of_nat p).
Proof.
  intros HX EK (cd & Hp & En) H. unfold resolve_accessor in H. rewrite EK in H.
  apply bind_ok in H as (i & Hi & H). injection H as <-.
  assert (HN : nth_error (map cs_name (x_choosers x)) p = Some (a_name a)).
  { rewrite (co_choosers _ _ HX), nth_error_map, Hp. cbn. congruence. }
  rewrite (find_name_exact _ _ _ _ HN Hi). reflexivity.
Qed.
Lemma resolve_choice r x a c v : ctx_of r x -> a_kind a = AChoice -> the_choice r a c ->
  resolve_accessor x a = Ok v -> v = Some (N.of_nat c).
Proof.
  intros HX EK (i & p & Hi & En & (p' & Hp' & Hk & ->)) H. unfold resolve_accessor in H. rewrite EK in H.
  replace p' with p in * by congruence.
  apply bind_ok in H as (j & Hj & H).
  pose proof (copies_pos p) as Hcp.
  pose proof (blocks_nth (r_choices r) 0 i 0 p Hi ltac:(lia)) as HB.
  assert (HN : nth_error (map ch_name (x_choices x)) (first_index (r_choices r) i + 0) = Some (a_name a)).
  { rewrite (co_choices _ _ HX), nth_error_map, HB. cbn. congruence. }
  rewrite (find_name_exact _ _ _ _ HN Hj) in H.
  rewrite (co_choices _ _ HX), (follow_parts_spec _ i p Hi) in H by lia.
  cbn in H. injection H as <-. reflexivity.
Qed.

Lemma cardinal_unique P n m : cardinal P n -> cardinal P m -> n = m.
Proof.
  intros (l1 & N1 & H1 & <-) (l2 & N2 & H2 & <-). apply Nat.le_antisymm; apply NoDup_incl_length; auto; intros x Hx.
  - apply H2, H1; auto.
  - apply H1, H2; auto.
Qed.

Lemma add_constraint_err_left x e k ex l : add_constraint x e k ex = Ok l ->
  forall m, resolve_accessor x (e_right e) = Ok (Some m) -> exists v, resolve_accessor x (e_left e) = Ok v.
Proof.
  unfold add_constraint. intros H m Hm. apply bind_ok in H as (rt & Hrt & H).
  destruct rt as [t|].
  - apply bind_ok in H as (v & Hv & _). eauto.
  - exfalso. destruct (a_kind (e_right e)) eqn:E; try discriminate Hrt; rewrite Hm in Hrt; cbn in Hrt; try discriminate.
    destruct (m <=? u32_max)%N; discriminate.
Qed.
Lemma add_constraint_right_ok x e k ex l : proper (a_kind (e_right e)) -> add_constraint x e k ex = Ok l ->
  exists v, resolve_accessor x (e_right e) = Ok v.
Proof.
  unfold add_constraint. intros HP H. apply bind_ok in H as (rt & Hrt & H).
  destruct (a_kind (e_right e)) eqn:E; cbn in HP; try contradiction; apply bind_ok in Hrt as (v & Hv & _); eauto.
Qed.

(** What resolves to what. *)
Definition denotes (r : reader) (a : accessor) (n : N) : Prop :=
  match a_kind a with
  | ASlot => exists s, the_slot r a s /\ n = N.of_nat s
  | AChoice => exists c, the_choice r a c /\ n = N.of_nat c
  | AChooser => exists p, the_chooser r a p /\ n = N.of_nat p
  | AInteger => exists z, a_name a = z_to_string z /\ z = Z.of_N n
  | _ => False
  end.

Lemma resolve_denotes r x a n v : ctx_of r x -> a_kind a <> AInteger -> denotes r a n -> resolve_accessor x a = Ok v -> v = Some n.
Proof.
  intros HX HI HD H. unfold denotes in HD. destruct (a_kind a) eqn:EK; try contradiction; try congruence;
    destruct HD as (i & Hi & ->).
  - eapply resolve_chooser; eauto.
  - eapply resolve_choice; eauto.
  - eapply resolve_slot; eauto.
Qed.

Lemma direct_there r x e k ex l n : ctx_of r x -> proper (a_kind (e_right e)) ->
  a_kind (e_left e) <> AInteger ->
  add_constraint x e k ex = Ok l -> denotes r (e_left e) n ->
  (a_kind (e_right e) <> AInteger -> forall m, denotes r (e_right e) m ->
     In (mkC k (N.to_nat n) (target_of (a_kind (e_right e)) m) ex) l) /\
  (a_kind (e_right e) = AInteger -> forall z, a_name (e_right e) = z_to_string z ->
     exists m, z = Z.of_N m /\ In (mkC k (N.to_nat n) (TLimit m) ex) l).
Proof.
  intros HX HP HI H HD. destruct (add_constraint_right_ok _ _ _ _ _ HP H) as (v & Hv). split.
  - intros HR m Hm. pose proof (resolve_denotes r x _ m v HX HR Hm Hv) as ->.
    destruct (add_constraint_err_left _ _ _ _ _ H m Hv) as (w & Hw).
    pose proof (resolve_denotes r x _ n w HX HI HD Hw) as ->.
    eapply add_constraint_there; eauto.
  - intros HR z Ez. assert (exists m, v = Some m /\ z = Z.of_N m) as (m & -> & ->).
    { unfold resolve_accessor in Hv. rewrite HR in Hv. destruct (parse_usize _) as [m|] eqn:Em; [|discriminate].
      injection Hv as <-. exists m. split; auto. rewrite Ez in Em. apply parse_usize_z in Em. auto. }
    exists m. split; auto. destruct (add_constraint_err_left _ _ _ _ _ H m Hv) as (w & Hw).
    pose proof (resolve_denotes r x _ n w HX HI HD Hw) as ->.
    pose proof (add_constraint_there _ _ _ _ _ _ _ HP H Hw Hv) as G. rewrite HR in G. exact G.
Qed.

(** Direct reading: the table entry says what the expression says. *)
Lemma says_direct_ok (strict : bool) r x e k ex l S A :
  ctx_of r x -> table e = Some (k, ex) -> add_constraint x e k ex = Ok l ->
  (strict = true -> forall c, c < length (x_choices x) -> held S c) ->
  (forall c, In c l -> means S A c) ->
  says_direct strict r S A (e_left e) (e_rel e) (e_right e).
Proof.
  intros HX HT H HH HM. destruct e as [la rel ra]. unfold table in HT; cbn [e_left e_right e_rel] in *.
  assert (HP : proper (a_kind ra)).
  { destruct (a_kind la), (a_sub la), rel, (a_kind ra); try discriminate HT; exact I || (destruct (a_sub ra); discriminate HT). }
  assert (HI : a_kind la <> AInteger).
  { destruct (a_kind la), (a_sub la), rel; discriminate. }
  pose proof (fun n => direct_there r x (mkE la rel ra) k ex l n HX HP HI H) as D. cbn [e_left e_right] in D.
  assert (HB : forall a c, a_kind a = AChoice -> the_choice r a c -> c < length (x_choices x)).
  { intros a c _ (i & p & _ & _ & Hc). rewrite (co_choices _ _ HX), blocks_length. eapply part_bound; eauto. }
  unfold says_direct.
  destruct (a_kind la) eqn:E1; try discriminate HT; destruct (a_sub la) eqn:E2; try discriminate HT;
    destruct rel; try discriminate HT;
    destruct (a_kind ra) eqn:E3; try discriminate HT; destruct (a_sub ra) eqn:E4; try discriminate HT;
    injection HT as <- <-;
    try (intros a b Ha Hb;
         assert (DA : denotes r la (N.of_nat a)) by (unfold denotes; rewrite E1; eauto);
         assert (DB : denotes r ra (N.of_nat b)) by (unfold denotes; rewrite E3; eauto);
         destruct (D _ DA) as [D1 _]; specialize (D1 ltac:(discriminate) _ DB); apply HM in D1;
         unfold means, sched_means, asg_means in D1; cbn [target_of c_kind c_left c_right c_extra] in D1; rewrite !Nat2N.id in D1; cbn in D1);
    try (exact D1);
    try (intros Hheld; apply D1; destruct strict; [apply HH; eauto|apply Hheld; reflexivity]);
    try (intros Hheld; apply D1; destruct strict; try (apply HH; eauto); apply (Hheld eq_refl));
    try (intros s z m Hs Ez HC;
         assert (DA : denotes r la (N.of_nat s)) by (unfold denotes; rewrite E1; eauto);
         destruct (D _ DA) as [_ D2]; destruct (D2 eq_refl z Ez) as (mm & -> & D1); apply HM in D1;
         unfold means, sched_means in D1; cbn in D1; rewrite Nat2N.id in D1; destruct D1 as (m' & HC' & HR);
         rewrite (cardinal_unique _ _ _ HC HC'); cbn in HR |- *; lia).
  intros Hheld. destruct strict; [apply D1; apply HH; eauto|apply D1; apply (Hheld eq_refl)].
Qed.

Lemma table_none_says strict r S A l rel rr : table (mkE l rel rr) = None -> says_direct strict r S A l rel rr.
Proof.
  unfold table, says_direct; cbn [e_left e_right e_rel].
  destruct (a_kind l), (a_sub l), rel, (a_kind rr), (a_sub rr); intros H; try discriminate H; try exact I; cbn; auto.
Qed.

Lemma says_ok (strict : bool) r x e l S A :
  ctx_of r x -> build_expr x e = Ok l ->
  (is_order (e_rel e) = true -> a_kind (e_left e) = ASlot) ->
  (strict = true -> forall c, c < length (x_choices x) -> held S c) ->
  (forall c, In c l -> means S A c) ->
  says strict r S A e.
Proof.
  intros HX HB HO HH HM. unfold build_expr in HB. destruct e as [la rel ra]. unfold says; cbn [e_left e_rel e_right] in *.
  destruct (table (mkE la rel ra)) as [[k ex]|] eqn:ET.
  - pose proof (says_direct_ok strict r x _ k ex l S A HX ET HB HH HM) as HD. cbn [e_left e_rel e_right] in HD.
    split; auto. clear HB HM. unfold table in ET; cbn [e_left e_rel e_right] in ET. unfold says_direct in *.
    destruct (a_kind la) eqn:E1; try discriminate ET; destruct (a_sub la) eqn:E2; try discriminate ET;
    destruct rel; try discriminate ET; cbn [mirror_rel]; auto;
    destruct (a_kind ra) eqn:E3; try discriminate ET; destruct (a_sub ra) eqn:E4; try discriminate ET; auto.
    + intros p p' Hp Hp' c. symmetry. auto.
    + intros c c' Hc Hc' HS p. symmetry. apply HD; auto. intros Es. specialize (HS Es). tauto.
    + intros c c' Hc Hc' s. symmetry; auto.
    + intros c c' Hc Hc' s [Ha Hb]. apply (HD c' c Hc' Hc s); auto.
    + intros s s' Hs Hs' c. symmetry; auto.
  - destruct (table (swap_sides (mkE la rel ra))) as [[k ex]|] eqn:ET'; [|discriminate HB].
    pose proof (says_direct_ok strict r x _ k ex l S A HX ET' HB HH HM) as HD.
    unfold swap_sides in *. cbn [e_left e_rel e_right] in *.
    split; [apply table_none_says; auto|].
    destruct rel; auto; specialize (HO eq_refl);
      unfold table in ET'; cbn [e_left e_rel e_right] in ET'; rewrite HO in ET';
      destruct (a_kind ra), (a_sub ra); discriminate ET'.
Qed.
