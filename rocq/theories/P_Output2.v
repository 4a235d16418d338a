(** Riffling, seeds, log lines, progress bars. *)
From Verif Require Import Base M_Data M_Rng P_Rng M_Output Spec_Output.
From Coq Require Import String Ascii Permutation.
Notation length := Datatypes.length.
Notation get := Base.get.
Open Scope string_scope.
Open Scope list_scope.

(** ** Riffle *)
Lemma riffle_interleaves {A} p : forall (l r res : list A),
  length (filter zerob p) = length l -> length (filter (fun n => negb (zerob n)) p) = length r ->
  riffle p l r = Ok res -> interleaving l r res.
Proof.
  induction p as [|n p IH]; intros l r res HL HR H; cbn in HL, HR.
  - destruct l, r; cbn in *; try lia. injection H as <-. constructor.
  - destruct n as [|n]; cbn in HL, HR; cbn [riffle] in H.
    + destruct l as [|x l]; cbn in HL; [lia|]. apply bind_ok in H as (t & Ht & H). injection H as <-. constructor. apply IH; auto.
    + destruct r as [|x r]; cbn in HR; [lia|]. apply bind_ok in H as (t & Ht & H). injection H as <-. constructor. apply IH; auto.
Qed.
Lemma interleaving_perm {A} (l r m : list A) : interleaving l r m -> Permutation (l ++ r) m.
Proof.
  induction 1 as [|x l r m H IH|x l r m H IH]; cbn; auto. rewrite <- Permutation_middle. auto.
Qed.

(** ** Seeds *)
Open Scope N_scope.
Lemma lt_two64_log2 v : 0 < v -> (v < two64 <-> N.log2 v < 64).
Proof. intros Hv. change two64 with (2^64). rewrite N.log2_lt_pow2 by auto. tauto. Qed.
Lemma lxor_lt a b : a < two64 -> b < two64 -> N.lxor a b < two64.
Proof.
  intros Ha Hb. destruct (N.eq_dec (N.lxor a b) 0) as [->|Hz]; [unfold two64; lia|].
  apply lt_two64_log2; [lia|]. eapply N.le_lt_trans; [apply N.log2_lxor|].
  assert (X : forall v, v < two64 -> N.log2 v < 64).
  { intros v Hv. destruct (N.eq_dec v 0) as [->|]; [cbn; lia|]. apply lt_two64_log2; auto. lia. }
  apply N.max_lub_lt; apply X; auto.
Qed.
Lemma shiftr_le v k : N.shiftr v k <= v.
Proof. rewrite N.shiftr_div_pow2. apply N.div_le_upper_bound; [apply N.pow_nonzero; lia|]. assert (2^k <> 0) by (apply N.pow_nonzero; lia). nia. Qed.
Lemma shiftr_fix z k : 0 < k -> z = N.shiftr z k -> z = 0.
Proof.
  intros Hk H. destruct (N.eq_dec z 0); auto. exfalso. rewrite N.shiftr_div_pow2 in H.
  assert (1 < 2 ^ k) by (apply N.pow_gt_1; lia). assert (z / 2^k < z) by (apply N.div_lt; lia). lia.
Qed.
Lemma xorshift_inj k v w : 0 < k -> N.lxor v (N.shiftr v k) = N.lxor w (N.shiftr w k) -> v = w.
Proof.
  intros Hk H. apply N.lxor_eq. apply (shiftr_fix _ k Hk). rewrite N.shiftr_lxor.
  apply N.lxor_eq. transitivity (N.lxor (N.lxor v (N.shiftr v k)) (N.lxor w (N.shiftr w k))).
  - rewrite !N.lxor_assoc. f_equal. rewrite (N.lxor_comm (N.shiftr v k) (N.lxor w _)), N.lxor_assoc.
    f_equal. apply N.lxor_comm.
  - rewrite H. apply N.lxor_nilpotent.
Qed.
Lemma xorshift_lt k v : v < two64 -> N.lxor v (N.shiftr v k) < two64.
Proof. intros H. apply lxor_lt; auto. pose proof (shiftr_le v k). lia. Qed.
Lemma mul_inj m inv x y : (m * inv) mod two64 = 1 -> x < two64 -> y < two64 -> (x * m) mod two64 = (y * m) mod two64 -> x = y.
Proof.
  intros Hi Hx Hy H. assert (Hn : two64 <> 0) by (unfold two64; lia).
  assert (X : forall z, z < two64 -> ((z * m) mod two64 * inv) mod two64 = z).
  { intros z Hz. rewrite N.mul_mod_idemp_l by auto. rewrite <- N.mul_assoc, <- N.mul_mod_idemp_r, Hi, N.mul_1_r by auto. apply N.mod_small; auto. }
  rewrite <- (X x Hx), <- (X y Hy), H. reflexivity.
Qed.
Lemma add_inj c x y : x < two64 -> y < two64 -> (x + c) mod two64 = (y + c) mod two64 -> x = y.
Proof.
  intros Hx Hy H. unfold two64 in *. assert (Hn : 18446744073709551616 <> 0) by lia.
  pose proof (N.div_mod (x + c) _ Hn). pose proof (N.div_mod (y + c) _ Hn).
  set (a := (x + c) / 18446744073709551616) in *. set (b := (y + c) / 18446744073709551616) in *. rewrite H in *. lia.
Qed.
Lemma mod_lt64 z : z mod two64 < two64. Proof. apply N.mod_lt. unfold two64. lia. Qed.
Lemma mix_seed_inj seed s1 s2 : s1 < two64 -> s2 < two64 -> seed < two64 -> mix_seed seed s1 = mix_seed seed s2 -> s1 = s2.
Proof.
  intros H1 H2 Hs H. unfold mix_seed in H.
  apply xorshift_inj in H; [|lia].
  apply (mul_inj _ 3573116690164977347) in H; [| reflexivity | apply xorshift_lt, mod_lt64 | apply xorshift_lt, mod_lt64].
  apply xorshift_inj in H; [|lia].
  apply (mul_inj _ 10871156337175269513) in H; [| reflexivity | apply xorshift_lt, lxor_lt; auto using mod_lt64 | apply xorshift_lt, lxor_lt; auto using mod_lt64].
  apply xorshift_inj in H; [|lia].
  apply (f_equal (N.lxor seed)) in H. rewrite <- !N.lxor_assoc, !N.lxor_nilpotent, !N.lxor_0_l in H.
  eapply add_inj; eauto.
Qed.
Lemma mix_seed_lt seed s : seed < two64 -> mix_seed seed s < two64.
Proof. intros H. unfold mix_seed. apply xorshift_lt, mod_lt64. Qed.
Close Scope N_scope.

(** ** Draws *)
Lemma next_in_range_result pr sample lo hi z : (i32_min <= sample <= i32_max)%Z -> (i32_min <= lo)%Z -> (hi <= i32_max)%Z ->
  (lo < hi)%Z -> next_in_range pr sample lo hi = Ok z -> (lo <= z < hi)%Z.
Proof.
  intros HS HL HH HLH H. destruct (Z.leb_spec (hi - lo) i32_max) as [Hw|Hw].
  - destruct (next_in_range_ok pr sample lo hi HS HL HH HLH Hw) as (z' & E & R). rewrite H in E. injection E as <-. exact R.
  - unfold next_in_range, i32_wrap in H. destruct (Z.leb_spec (hi - lo) i32_max) as [Hc|_]; [lia|]. rewrite andb_false_r in H.
    destruct pr; [discriminate|]. cbn [bind] in H. unfold i32_min, i32_max in *.
    set (W := (((hi - lo + 2147483648) mod 4294967296) - 2147483648)%Z) in *.
    assert (EW : (W = hi - lo - 4294967296)%Z).
    { unfold W. rewrite <- (Z.mod_unique_pos (hi - lo + 2147483648) 4294967296 1 (hi - lo + 2147483648 - 4294967296)); lia. }
    unfold rem_euclid in H. destruct (Z.eqb_spec W 0); [discriminate|].
    destruct (_ && _)%bool; [discriminate|]. cbn [bind] in H.
    rewrite Z.abs_neq in H by lia.
    pose proof (Z.mod_pos_bound sample (- W) ltac:(lia)).
    destruct (Z.leb_spec (-2147483648) (lo + sample mod - W)); [|lia].
    destruct (Z.leb_spec (lo + sample mod - W) 2147483647); [|lia]. cbn [andb] in H. injection H as <-. lia.
Qed.

(** ** Log writer *)
Lemma drain_ok broken rest : forall acc b0 lines k w', one_line acc ->
  drain broken acc rest (mkWriter b0 lines k) = (true, w') ->
  exists ls, lw_lines w' = lines ++ ls /\ split_at_newlines (acc ++ rest) ls (lw_buffer w').
Proof.
  induction rest as [|c t IH]; intros acc b0 lines k w' Ha H; cbn [drain lw_lines lw_tries] in H.
  - injection H as <-. exists []. cbn. rewrite !app_nil_r. repeat split; auto.
  - destruct (Ascii.eqb_spec c nl) as [->|Hne].
    + unfold print_line in H. cbn [lw_lines lw_buffer lw_tries] in H. destruct (broken k); [discriminate|].
      destruct (IH [] _ _ _ _ ltac:(intros []) H) as (ls & E & H1 & H2 & H3).
      exists (acc :: ls). rewrite E, <- app_assoc. split; auto. split; [|split; auto].
      unfold laid_out in *. cbn [flat_map]. cbn [app] in H1. rewrite H1, <- !app_assoc. reflexivity.
    + destruct (IH (acc ++ [c]) b0 lines k w') as (ls & E & H1 & H2 & H3); auto.
      { intros Hi. apply in_app_iff in Hi as [Hi|[Hi|[]]]; [auto|]. apply Hne. exact Hi. }
      exists ls. split; auto. split; auto. rewrite <- H1, <- app_assoc. reflexivity.
Qed.
Lemma drain_works rest : forall acc w, exists w', drain (fun _ => false) acc rest w = (true, w').
Proof.
  induction rest as [|c t IH]; intros acc w; cbn [drain]; [eauto|]. destruct (Ascii.eqb c nl); [|apply IH].
  unfold print_line. apply IH.
Qed.
Lemma log_write_ok broken buf w w' : one_line (lw_buffer w) -> log_write broken buf w = (true, w') ->
  exists ls, lw_lines w' = lw_lines w ++ ls /\ split_at_newlines (lw_buffer w ++ buf) ls (lw_buffer w').
Proof. intros Ho H. unfold log_write in H. destruct w as [b l k]. cbn [lw_buffer] in *. apply (drain_ok broken (b ++ buf) [] b l k w' ltac:(intros []) H). Qed.
Lemma log_write_works buf w : fst (log_write (fun _ => false) buf w) = true.
Proof. unfold log_write. destruct (drain_works (lw_buffer w ++ buf) [] w) as (w' & ->). auto. Qed.

Lemma laid_app l m r : laid_out (l ++ m) r = flat_map (fun x => x ++ [newline]) l ++ laid_out m r.
Proof. unfold laid_out. rewrite flat_map_app, <- app_assoc. auto. Qed.
(** A text has one decomposition into lines. *)
Lemma line_first (a b x y : list ascii) : one_line a -> one_line b -> a ++ newline :: x = b ++ newline :: y -> a = b /\ x = y.
Proof.
  revert b. induction a as [|c a IH]; intros [|e b] Ha Hb H; cbn in H.
  - injection H as ->. auto.
  - injection H as <- _. exfalso. apply Hb. cbn. auto.
  - injection H as -> _. exfalso. apply Ha. cbn. auto.
  - injection H as -> H. destruct (IH b) as [-> ->]; auto; intros Hi; [apply Ha|apply Hb]; cbn; auto.
Qed.
Lemma split_unique b l r l' r' : split_at_newlines b l r -> split_at_newlines b l' r' -> l = l' /\ r = r'.
Proof.
  intros (H1 & H2 & H3) (H1' & H2' & H3'). subst b. revert l' r' H1' H2' H3'.
  induction l as [|x l IH]; intros l' r' H1 H2' H3'; destruct l' as [|x' l']; unfold laid_out in H1; cbn [flat_map app] in H1; auto.
  - exfalso. apply H3. rewrite H1, !in_app_iff. cbn. auto.
  - exfalso. apply H3'. rewrite <- H1, !in_app_iff. cbn. auto.
  - inversion H2; subst. inversion H2'; subst. rewrite <- !app_assoc in H1. cbn [app] in H1.
    apply line_first in H1 as [-> H1]; auto. destruct (IH H5 l' r') as [-> ->]; auto.
Qed.
Lemma split_extend b l r c l' r' : split_at_newlines b l r -> split_at_newlines (r ++ c) l' r' -> split_at_newlines (b ++ c) (l ++ l') r'.
Proof.
  intros (-> & H2 & H3) (E & H2' & H3'). split; [|split; auto; apply Forall_app; auto].
  rewrite laid_app, <- E. unfold laid_out. rewrite <- app_assoc. auto.
Qed.
Definition printable (b : list ascii) : list ascii := filter (fun c => negb (Ascii.eqb c newline)) b.
Lemma printable_one l : one_line l -> printable l = l.
Proof.
  induction l as [|c l IH]; intros H; auto. unfold printable in *. cbn [filter]. destruct (Ascii.eqb_spec c newline) as [->|]; [exfalso; apply H; cbn; auto|].
  cbn [negb]. rewrite IH; auto. intros Hi. apply H. cbn. auto.
Qed.
Lemma printable_app a b : printable (a ++ b) = printable a ++ printable b. Proof. apply filter_app. Qed.
Lemma split_printable b l r : split_at_newlines b l r -> printable b = List.concat l ++ r.
Proof.
  intros (-> & H2 & H3). induction H2 as [|x l Hx Hl IH]; unfold laid_out in *; cbn [flat_map app List.concat].
  - apply printable_one; auto.
  - rewrite <- !app_assoc. rewrite printable_app, (printable_one x Hx). f_equal. cbn [app]. rewrite <- IH. reflexivity.
Qed.

(** ** Progress bars *)
Lemma create_drop st h st1 : create_bar st = (h, st1) -> st_output st1 = st_output st /\
  forall st2, st_output st2 = st_output st -> st_active st2 = st_active st1 -> st_active (drop_bar h st2) = st_active st /\ st_output (drop_bar h st2) = st_output st.
Proof.
  unfold create_bar. destruct (st_output st) eqn:E; intros H; injection H as <- <-; cbn; auto.

Qed.
