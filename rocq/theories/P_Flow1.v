(** The flow network: node layout, edge keys, edge values. *)
From Verif Require Import Base M_Data M_Scoring M_Flow Spec.

Local Notation np d := (length (i_choosers d)).
Local Notation nc d := (length (i_choices d)).
Local Notation ns d := (length (i_slots d)).

(** ** Node layout *)
Definition seat (d : input_data) (p s : nat) : nat := p * ns d + s.
Definition room (d : input_data) (c : nat) : nat := np d * ns d + c.
Definition exit (d : input_data) (s : nat) : nat := np d * ns d + nc d + s.
Definition nodes (d : input_data) : nat := np d * ns d + nc d + ns d.

Lemma chooser_rows_spec : forall k f n rows f',
  chooser_rows f k n = (rows, f') ->
  f' = mkFlow (fl_supply f ++ repeat 0%Z (k * n)) (fl_edges f) (fl_map f) (fl_groups f) (fl_blocked f) /\
  rows = map (fun p => seq (node_count f + p * n) n) (seq 0 k).
Proof.
  induction k as [|k IH]; intros f n rows f' H; cbn [chooser_rows] in H.
  - injection H as <- <-. cbn. rewrite app_nil_r. destruct f; auto.
  - unfold add_nodes in H. destruct (chooser_rows _ k n) as [rows2 f2] eqn:E. injection H as <- <-.
    apply IH in E as [-> ->]. cbn [fl_supply fl_edges fl_map fl_groups fl_blocked]. split.
    + f_equal. rewrite <- app_assoc, <- repeat_app. do 2 f_equal.
    + cbn [seq map]. rewrite Nat.mul_0_l, Nat.add_0_r. f_equal. rewrite <- seq_shift, map_map. apply map_ext.
      intros p. f_equal. unfold node_count. cbn [fl_supply]. rewrite app_length, repeat_length. cbn. lia.
Qed.

Record layout (d : input_data) (sd : static) : Prop := {
  la_flow : sd_flow sd = mkFlow (repeat 0%Z (nodes d)) [] [] [] [];
  la_chooser : sd_chooser sd = map (fun p => seq (p * ns d) (ns d)) (seq 0 (np d));
  la_choice : sd_choice sd = seq (np d * ns d) (nc d);
  la_slot : sd_slot sd = seq (np d * ns d + nc d) (ns d)
}.
Lemma static_layout d sd : new_static d = Ok sd -> layout d sd.
Proof.
  unfold new_static. intros H. apply bind_ok in H as (u & _ & H). destruct (chooser_rows _ _ _) as [rows f1] eqn:E.
  apply chooser_rows_spec in E as [-> ->]. unfold add_nodes, node_count in H. cbn [fl_supply fl_edges fl_map fl_groups fl_blocked] in H.
  injection H as <-. constructor; cbn [sd_flow sd_chooser sd_choice sd_slot].
  - f_equal. cbn [app]. rewrite <- !repeat_app. reflexivity.
  - reflexivity.
  - cbn [app]. rewrite repeat_length. reflexivity.
  - cbn [app]. rewrite app_length, !repeat_length. reflexivity.
Qed.
Lemma index_u32_ok n : (N.of_nat n <= u32_max)%N -> index_u32 n = Ok (N.of_nat n).
Proof. intros H. unfold index_u32. apply N.leb_le in H. rewrite H. reflexivity. Qed.
Lemma static_total d : fits d -> exists sd, new_static d = Ok sd.
Proof.
  intros [H1 H2 H3]. unfold new_static.
  assert (E : static_keys_ok d = Ok tt).
  { unfold static_keys_ok, node_chooser, node_choice, node_slot.
    assert (I : forall n k, (N.of_nat k <= u32_max)%N -> In n (seq 0 k) -> index_u32 n = Ok (N.of_nat n)).
    { intros n k Hk Hn. apply in_seq in Hn. apply index_u32_ok. lia. }
    assert (Hs : (N.of_nat (ns d) <= u32_max)%N) by (unfold u32_max, i32_max in *; lia).
    rewrite (mmap_pure _ (fun p => map (fun s => make_long (N.of_nat p) (N.of_nat s)) (seq 0 (ns d)))).
    - cbn [bind]. rewrite (mmap_pure _ (fun c => make_long choice_id_high (N.of_nat c))).
      + cbn [bind]. rewrite (mmap_pure _ (fun c => make_long slot_id_high (N.of_nat c))); auto.
        intros s Hin. rewrite (I s (ns d)); auto.
      + intros c Hin. rewrite (I c (nc d)); auto. lia.
    - intros p Hp. apply mmap_pure. intros s Hin. rewrite (I p (np d)) by (auto; lia). cbn [bind]. rewrite (I s (ns d)) by auto. reflexivity. }
  rewrite E. cbn [bind]. destruct (chooser_rows _ _ _). unfold add_nodes. eauto.
Qed.

Lemma nth_error_seq i a n : nth_error (seq a n) i = if i <? n then Some (a + i) else None.
Proof.
  revert i a; induction n as [|n IH]; intros [|i] a; cbn [seq nth_error]; auto.
  - cbn. rewrite Nat.add_0_r. auto.
  - rewrite IH. change (S i <? S n) with (i <? n). destruct (i <? n); auto. f_equal; lia.
Qed.
Lemma get_seq_ok i a n x : get (seq a n) i = Ok x <-> i < n /\ x = a + i.
Proof.
  rewrite get_ok, nth_error_seq. destruct (Nat.ltb_spec i n); split; intro H'.
  - injection H' as <-; auto.
  - destruct H' as [_ ->]; auto.
  - discriminate.
  - destruct H'; lia.
Qed.
Section Layout.
Context (d : input_data) (sd : static) (HL : layout d sd).
Lemma chooser_node_ok p s x : chooser_node sd p s = Ok x <-> p < np d /\ s < ns d /\ x = seat d p s.
Proof.
  unfold chooser_node. rewrite (la_chooser _ _ HL), bind_ok. unfold seat. split.
  - intros (row & H1 & H2). apply get_ok in H1. rewrite nth_error_map, nth_error_seq in H1.
    destruct (Nat.ltb_spec p (np d)); [|discriminate]. injection H1 as <-. apply get_seq_ok in H2 as [? ->]. auto.
  - intros (Hp & Hs & ->). eexists. split.
    + apply get_ok. rewrite nth_error_map, nth_error_seq. destruct (Nat.ltb_spec p (np d)); [|lia]. reflexivity.
    + apply get_seq_ok. auto.
Qed.
Lemma choice_node_ok c x : get (sd_choice sd) c = Ok x <-> c < nc d /\ x = room d c.
Proof. rewrite (la_choice _ _ HL). apply get_seq_ok. Qed.
Lemma slot_node_ok s x : get (sd_slot sd) s = Ok x <-> s < ns d /\ x = exit d s.
Proof. rewrite (la_slot _ _ HL). apply get_seq_ok. Qed.
End Layout.

Lemma seat_lt d p s : p < np d -> s < ns d -> seat d p s < np d * ns d.
Proof.
  unfold seat. intros Hp Hs. assert (S p * ns d <= np d * ns d) by (apply Nat.mul_le_mono_r; lia). cbn in H. lia.
Qed.
Lemma seat_inj d p s p' s' : s < ns d -> s' < ns d -> seat d p s = seat d p' s' -> p = p' /\ s = s'.
Proof.
  unfold seat. intros H H' E.
  assert (p = p').
  { assert (p = (p * ns d + s) / ns d) as -> by (rewrite Nat.div_add_l by lia; rewrite Nat.div_small; lia).
    rewrite E. rewrite Nat.div_add_l by lia. rewrite (Nat.div_small s'); lia. }
  subst. split; auto. lia.
Qed.
Lemma room_inj d c c' : room d c = room d c' -> c = c'. Proof. unfold room. lia. Qed.
Lemma exit_inj d s s' : exit d s = exit d s' -> s = s'. Proof. unfold exit. lia. Qed.
Lemma seat_room d p s c : p < np d -> s < ns d -> seat d p s <> room d c.
Proof. intros Hp Hs. pose proof (seat_lt d p s Hp Hs). unfold room. lia. Qed.
Lemma seat_exit d p s c : p < np d -> s < ns d -> seat d p s <> exit d c.
Proof. intros Hp Hs. pose proof (seat_lt d p s Hp Hs). unfold exit. lia. Qed.
Lemma room_exit d c s : c < nc d -> room d c <> exit d s. Proof. unfold room, exit. lia. Qed.
Lemma room_lt d c : c < nc d -> room d c < nodes d. Proof. unfold room, nodes. lia. Qed.
Lemma exit_lt d s : s < ns d -> exit d s < nodes d. Proof. unfold exit, nodes. lia. Qed.
Lemma seat_nodes d p s : p < np d -> s < ns d -> seat d p s < nodes d.
Proof. intros Hp Hs. pose proof (seat_lt d p s Hp Hs). unfold nodes. lia. Qed.

(** ** Edge keys *)
Lemma make_long_eq h l : (l <= u32_max)%N -> make_long h l = (h * 4294967296 + l)%N.
Proof.
  intros H. unfold make_long. rewrite N.shiftl_mul_pow2. change (2 ^ 32)%N with 4294967296%N.
  apply N.bits_inj. intros n. rewrite N.lor_spec.
  change 4294967296%N with (2 ^ 32)%N.
  destruct (N.lt_ge_cases n 32) as [Hn|Hn].
  - rewrite N.mul_pow2_bits_low by auto. cbn [orb].
    rewrite <- (N.mod_pow2_bits_low (h * 2 ^ 32 + l) 32 n) by auto.
    rewrite N.add_comm, N.mod_add by (cbn; discriminate). rewrite N.mod_small; auto. unfold u32_max in H. change (2 ^ 32)%N with 4294967296%N. lia.
  - rewrite N.mul_pow2_bits_high by auto.
    assert (E : (N.testbit l n = false)%N).
    { destruct (N.eq_dec l 0) as [->|Hz]; [apply N.bits_0|]. apply N.bits_above_log2. apply N.log2_lt_pow2; [lia|].
      assert (2 ^ 32 <= 2 ^ n)%N by (apply N.pow_le_mono_r; lia). unfold u32_max in H. change (2 ^ 32)%N with 4294967296%N in H0. lia. }
    rewrite E, orb_false_r. replace n with ((n - 32) + 32)%N at 2 by lia. rewrite <- N.div_pow2_bits.
    rewrite N.div_add_l by (cbn; discriminate). rewrite N.div_small; [f_equal; lia|]. unfold u32_max in H. change (2 ^ 32)%N with 4294967296%N. lia.
Qed.
Lemma make_long_inj h l h' l' : (l <= u32_max)%N -> (l' <= u32_max)%N -> make_long h l = make_long h' l' -> h = h' /\ l = l'.
Proof.
  intros H H'. rewrite !make_long_eq by auto. intros E. unfold u32_max in *.
  assert (h = h') by lia. subst. split; auto. lia.
Qed.
Definition key (a b : nat) : N := make_long (N.of_nat a) (N.of_nat b).
Lemma edge_id_ok a b k : edge_id a b = Ok k <-> (N.of_nat a <= u32_max /\ N.of_nat b <= u32_max)%N /\ k = key a b.
Proof.
  unfold edge_id, index_u32. destruct (N.leb_spec (N.of_nat a) u32_max); cbn [bind].
  2: { split; [discriminate|]. intros [[? ?] _]. lia. }
  destruct (N.leb_spec (N.of_nat b) u32_max); cbn [bind].
  2: { split; [discriminate|]. intros [[? ?] _]. lia. }
  split; [intros E; injection E as <-; auto | intros [_ ->]; auto].
Qed.
Lemma key_inj a b a' b' : (N.of_nat b <= u32_max)%N -> (N.of_nat b' <= u32_max)%N -> key a b = key a' b' -> a = a' /\ b = b'.
Proof. intros H H' E. apply make_long_inj in E as [E1 E2]; auto. lia. Qed.

(** ** Adding edges *)
Definition ends (e : edge) : nat * nat := (e_from e, e_to e).
Definition ekey (e : edge) : N := key (e_from e) (e_to e).
Definition plain_add (f : flow) (e : edge) : flow :=
  mkFlow (fl_supply f) (fl_edges f ++ [e]) ((ekey e, length (fl_edges f)) :: fl_map f) (fl_groups f) (fl_blocked f).
Definition add_all (f : flow) (es : list edge) : flow := fold_left plain_add es f.
Lemma add_all_app f l m : add_all f (l ++ m) = add_all (add_all f l) m.
Proof. apply fold_left_app. Qed.
Lemma add_keyed_ok f a b mx co f' : add_keyed_edge f (key a b) a b mx co = Ok f' ->
  f' = plain_add f (mkEdge a b mx co) /\ a < node_count f /\ b < node_count f.
Proof.
  unfold add_keyed_edge. destruct (Nat.ltb_spec a (node_count f)), (Nat.ltb_spec b (node_count f)); cbn [andb]; try discriminate.
  intros E. injection E as <-. auto.
Qed.
Lemma add_keyed_total f a b mx co : a < node_count f -> b < node_count f ->
  add_keyed_edge f (key a b) a b mx co = Ok (plain_add f (mkEdge a b mx co)).
Proof.
  intros Ha Hb. unfold add_keyed_edge. apply Nat.ltb_lt in Ha, Hb. rewrite Ha, Hb. reflexivity.
Qed.
Lemma add_all_fields f es : fl_supply (add_all f es) = fl_supply f /\ fl_edges (add_all f es) = fl_edges f ++ es /\
  fl_groups (add_all f es) = fl_groups f /\ fl_blocked (add_all f es) = fl_blocked f.
Proof.
  revert f; induction es as [|e es IH]; intros f; cbn [add_all fold_left].
  - rewrite app_nil_r. auto.
  - specialize (IH (plain_add f e)) as (E1 & E2 & E3 & E4). unfold add_all in *. rewrite E1, E2, E3, E4. cbn. rewrite <- app_assoc. auto.
Qed.

(** The key table lists exactly the edges. *)
Definition keyed (f : flow) : Prop := fl_map f = rev (combine (map ekey (fl_edges f)) (seq 0 (length (fl_edges f)))).
Lemma combine_app {A B} (l1 l2 : list A) (m1 m2 : list B) : length l1 = length m1 -> combine (l1 ++ l2) (m1 ++ m2) = combine l1 m1 ++ combine l2 m2.
Proof. revert m1; induction l1 as [|a l IH]; intros [|b m] H; cbn in *; try lia; auto. f_equal. apply IH. lia. Qed.
Lemma plain_add_keyed f e : keyed f -> keyed (plain_add f e).
Proof.
  unfold keyed. intros H. cbn [plain_add fl_map fl_edges]. rewrite H, map_app, app_length. cbn [length map]. rewrite Nat.add_1_r, seq_S, combine_app.
  - rewrite rev_app_distr. reflexivity.
  - rewrite map_length, seq_length. reflexivity.
Qed.
Lemma add_all_keyed f es : keyed f -> keyed (add_all f es).
Proof. revert f; induction es as [|e es IH]; intros f H; cbn; auto. apply IH, plain_add_keyed, H. Qed.

Lemma in_combine_seq {A} (l : list A) : forall n x i, In (x, i) (combine l (seq n (length l))) <-> n <= i /\ nth_error l (i - n) = Some x.
Proof.
  induction l as [|a l IH]; intros n x i; cbn [length seq combine].
  - split; [intros []|]. intros [_ H]. destruct (i - n); discriminate.
  - cbn [In]. rewrite IH. split.
    + intros [E|[H1 H2]].
      * injection E as <- <-. rewrite Nat.sub_diag. auto.
      * split; [lia|]. replace (i - n) with (S (i - S n)) by lia. auto.
    + intros [H1 H2]. destruct (Nat.eq_dec n i) as [->|Hne].
      * rewrite Nat.sub_diag in H2. injection H2 as ->. auto.
      * right. split; [lia|]. replace (i - n) with (S (i - S n)) in H2 by lia. auto.
Qed.
Definition small (f : flow) : Prop := forall e, In e (fl_edges f) -> (N.of_nat (e_from e) <= u32_max /\ N.of_nat (e_to e) <= u32_max)%N.
Lemma find_edge_none f a b : keyed f -> small f -> (N.of_nat a <= u32_max)%N -> (N.of_nat b <= u32_max)%N ->
  find_edge f (key a b) = None -> ~ In (a, b) (map ends (fl_edges f)).
Proof.
  intros HK HS Ha Hb. unfold find_edge. destruct (find _ (fl_map f)) as [kv|] eqn:E; [discriminate|]. intros _ Hin.
  apply in_map_iff in Hin as (e & Ee & He). apply In_nth_error in He as [i Hi]. apply find_none with (x := (ekey e, i)) in E.
  - cbn in E. unfold ekey, ends in *. injection Ee as Ea Eb. rewrite Ea, Eb, N.eqb_refl in E. discriminate.
  - rewrite HK. apply -> in_rev. rewrite <- (map_length ekey). apply in_combine_seq. split; [lia|]. rewrite Nat.sub_0_r, nth_error_map, Hi. reflexivity.
Qed.
Lemma find_edge_some f a b i : keyed f -> small f -> (N.of_nat a <= u32_max)%N -> (N.of_nat b <= u32_max)%N ->
  find_edge f (key a b) = Some i -> exists e, nth_error (fl_edges f) i = Some e /\ ends e = (a, b).
Proof.
  intros HK HS Ha Hb. unfold find_edge. destruct (find _ (fl_map f)) as [[k j]|] eqn:E; [|discriminate]. intros Ei. injection Ei as <-.
  apply find_some in E as [Hin Ek]. cbn [fst snd] in *. apply N.eqb_eq in Ek. rewrite HK in Hin. apply in_rev in Hin.
  rewrite <- (map_length ekey) in Hin. apply in_combine_seq in Hin as [_ Hin]. rewrite Nat.sub_0_r, nth_error_map in Hin.
  destruct (nth_error (fl_edges f) j) as [e|] eqn:Ee; [|discriminate]. injection Hin as Hin. exists e. split; auto.
  destruct (HS e (nth_error_In _ _ Ee)). unfold ekey in Hin. rewrite Ek in Hin. apply key_inj in Hin as [<- <-]; auto.
Qed.
