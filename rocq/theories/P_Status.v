(** Proofs for C68 and C69. *)
From Verif Require Import Base M_Data M_Scoring M_Names Spec Spec_Cost P_Score P_Cost M_Climb M_Threads Spec_Threads P_Threads M_Status Spec_Status.
From Coq Require Import String Ascii Floats.SpecFloat Reals Lra Lia ZArith.
From Coq Require Import DecimalString DecimalPos.
Notation length := Datatypes.length.
Open Scope string_scope.

(** ** Digits *)
Lemma digits_app a : forall acc b, digits acc (a ++ b) = match digits acc a with Some v => digits v b | None => None end.
Proof. induction a as [|c a IH]; intros acc b; [reflexivity|]. cbn [String.append digits]. destruct (_ && _)%Z; auto. Qed.
Ltac one_digit :=
  match goal with |- context [N_of_ascii ?c] => let v := eval vm_compute in (N_of_ascii c) in change (N_of_ascii c) with v end;
  match goal with |- context [(Z.of_N ?a - 48)%Z] => let v := eval vm_compute in (Z.of_N a - 48)%Z in change (Z.of_N a - 48)%Z with v end;
  cbn iota beta zeta delta [Z.leb Z.compare andb Pos.compare Pos.compare_cont].
Lemma digits_uint u : forall acc, digits (Zpos acc) (NilEmpty.string_of_uint u) = Some (Zpos (Pos.of_uint_acc u acc)).
Proof.
  induction u; intros acc; cbn [NilEmpty.string_of_uint digits]; [reflexivity|..];
  one_digit; cbn [Pos.of_uint_acc]; rewrite <- IHu; f_equal; lia.
Qed.
Lemma digits_uint0 u : digits 0 (NilEmpty.string_of_uint u) = Some (Z.of_N (Pos.of_uint u)).
Proof.
  induction u; cbn [NilEmpty.string_of_uint digits]; [reflexivity|..]; one_digit; [exact IHu|..]; apply digits_uint.
Qed.
Lemma number_n n : number (n_to_string n) = Some (Z.of_N n).
Proof.
  unfold n_to_string, z_to_string. destruct n as [|p]; [reflexivity|]. cbn [Z.of_N Z.to_int NilZero.string_of_int].
  replace (Zpos p) with (Z.of_N (Pos.of_uint (Pos.to_uint p))) by (rewrite DecimalPos.Unsigned.of_to; reflexivity). rewrite <- digits_uint0.
  pose proof (DecimalPos.Unsigned.of_to p) as HP. destruct (Pos.to_uint p) as [|u|u|u|u|u|u|u|u|u|u]; [cbn in HP; discriminate|..]; reflexivity.
Qed.
Lemma digit_ok acc n : digits acc (digit n) = Some (acc * 10 + Z.of_N (n mod 10))%Z.
Proof.
  unfold digit. cbn [digits]. assert (H : (n mod 10 < 10)%N) by (apply N.mod_upper_bound; discriminate). revert H. generalize (n mod 10)%N. clear n. intros r H.
  rewrite N_ascii_embedding by lia. replace (Z.of_N (48 + r) - 48)%Z with (Z.of_N r) by lia.
  destruct (Z.leb_spec 0 (Z.of_N r)); [|lia]. destruct (Z.leb_spec (Z.of_N r) 9); [reflexivity|lia].
Qed.
Lemma padded_ok k : forall acc n, digits acc (padded k n) = Some (acc * 10 ^ Z.of_nat k + Z.of_N (n mod 10 ^ N.of_nat k))%Z.
Proof.
  induction k as [|k IH]; intros acc n.
  - cbn [padded digits]. rewrite N.mod_1_r. f_equal. change (10 ^ Z.of_nat 0)%Z with 1%Z. lia.
  - cbn [padded]. rewrite digits_app, IH, digit_ok. f_equal.
    rewrite Nat2Z.inj_succ, Z.pow_succ_r, Nat2N.inj_succ, N.pow_succ_r by lia.
    assert (HP : (10 ^ N.of_nat k <> 0)%N) by (apply N.pow_nonzero; lia).
    rewrite (N.mod_mul_r n 10 (10 ^ N.of_nat k)) by (auto; lia). lia.
Qed.
Lemma append_length a : forall b, String.length (a ++ b) = String.length a + String.length b.
Proof. induction a; intros b; cbn; auto. Qed.
Lemma padded_length k : forall n, String.length (padded k n) = k.
Proof. induction k as [|k IH]; intros n; [reflexivity|]. cbn [padded]. rewrite append_length, IH. cbn. lia. Qed.

(** ** Rounding *)
Open Scope R_scope.
Lemma pow10 k : 10 ^ k = IZR (10 ^ Z.of_nat k). Proof. rewrite <- pow_IZR. reflexivity. Qed.
Lemma pow10_pos k : 0 < 10 ^ k. Proof. apply pow_lt. lra. Qed.
Lemma scaled_near k m e : Rabs (IZR (Z.of_N (scaled k m e)) - IZR (Zpos m) * powerRZ 2 e * 10 ^ k) <= / 2.
Proof.
  unfold scaled. rewrite pow10. set (n := (Zpos m * 10 ^ Z.of_nat k)%Z).
  assert (Hn : IZR (Zpos m) * powerRZ 2 e * IZR (10 ^ Z.of_nat k) = IZR n * powerRZ 2 e) by (unfold n; rewrite mult_IZR; ring). rewrite Hn. clear Hn.
  assert (Hn0 : (0 <= n)%Z) by (unfold n; assert (0 <= 10 ^ Z.of_nat k)%Z by (apply Z.pow_nonneg; lia); nia). clearbody n.
  destruct (Z.leb_spec 0 e).
  - rewrite Z2N.id by (apply Z.mul_nonneg_nonneg; auto; apply Z.pow_nonneg; lia). rewrite mult_IZR.
    replace (powerRZ 2 e) with (IZR (2 ^ e)). { rewrite Rminus_diag_eq by reflexivity. rewrite Rabs_R0. lra. }
    rewrite <- (Z2Nat.id e) by auto. rewrite <- pow_powerRZ, <- pow_IZR. reflexivity.
  - set (b := (2 ^ (- e))%Z). assert (Hb : (0 < b)%Z) by (apply Z.pow_pos_nonneg; lia).
    assert (Hp : powerRZ 2 e = / IZR b).
    { unfold b. replace e with (- - e)%Z at 1 by lia. rewrite powerRZ_neg' by lra. f_equal. rewrite <- (Z2Nat.id (- e)) by lia. rewrite <- pow_powerRZ, <- pow_IZR. reflexivity. }
    rewrite Hp. clearbody b. pose proof (Z.div_mod n b ltac:(lia)) as HD. pose proof (Z.mod_pos_bound n b Hb) as HM.
    set (q := (n / b)%Z) in *. set (r := (n mod b)%Z) in *. assert (Hq : (0 <= q)%Z) by (apply Z.div_pos; lia). clearbody q r.
    assert (Hbr : 0 < IZR b) by (apply IZR_lt; auto).
    assert (Hv : IZR n * / IZR b = IZR q + IZR r / IZR b) by (rewrite HD, plus_IZR, mult_IZR; field; lra).
    assert (Hr : 0 <= IZR r / IZR b) by (apply Rmult_le_pos; [apply IZR_le; lia|left; apply Rinv_0_lt_compat; auto]).
    assert (Lo : (2 * r <= b)%Z -> IZR r / IZR b <= / 2).
    { intros H1. apply IZR_le in H1. rewrite mult_IZR in H1. apply (Rmult_le_reg_r (IZR b)); auto. unfold Rdiv. rewrite Rmult_assoc, Rinv_l by lra. lra. }
    assert (Hi : (b <= 2 * r)%Z -> / 2 <= IZR r / IZR b).
    { intros H1. apply IZR_le in H1. rewrite mult_IZR in H1. apply (Rmult_le_reg_r (IZR b)); auto. unfold Rdiv. rewrite Rmult_assoc, Rinv_l by lra. lra. }
    assert (H1 : IZR r / IZR b <= 1).
    { apply (Rmult_le_reg_r (IZR b)); auto. unfold Rdiv. rewrite Rmult_assoc, Rinv_l by lra. assert (IZR r <= IZR b) by (apply IZR_le; lia). lra. }
    rewrite Hv. destruct (Z.compare_spec (2 * r) b) as [E|E|E].
    + specialize (Lo ltac:(lia)). specialize (Hi ltac:(lia)). destruct (Z.even q); rewrite Z2N.id by lia; rewrite ?plus_IZR; apply Rabs_le; lra.
    + specialize (Lo ltac:(lia)). rewrite Z2N.id by lia. apply Rabs_le; lra.
    + specialize (Hi ltac:(lia)). rewrite Z2N.id by lia. rewrite plus_IZR. apply Rabs_le; lra.
Qed.

Lemma fixed_shows k n s v : (k <> 0)%nat -> Rabs (IZR (Z.of_N n) - v * 10 ^ k) <= / 2 -> shows (minus s ++ fixed_point k n)%string k (if s then - v else v).
Proof.
  intros Hk H. exists (minus s), (n_to_string (n / 10 ^ N.of_nat k)), (padded k n), (Z.of_N (n / 10 ^ N.of_nat k)), (Z.of_N (n mod 10 ^ N.of_nat k)).
  split; [destruct s; auto|]. split; [destruct k; [congruence|reflexivity]|]. split; [apply number_n|].
  split; [rewrite padded_ok; f_equal; lia|]. split; [apply padded_length|].
  assert (HP : (10 ^ N.of_nat k <> 0)%N) by (apply N.pow_nonzero; lia).
  assert (HE : IZR (Z.of_N n) = IZR (Z.of_N (n / 10 ^ N.of_nat k)) * 10 ^ k + IZR (Z.of_N (n mod 10 ^ N.of_nat k))).
  { rewrite pow10, <- mult_IZR, <- plus_IZR. f_equal. rewrite (N.div_mod n _ HP) at 1. rewrite N2Z.inj_add, N2Z.inj_mul, N2Z.inj_pow. rewrite nat_N_Z. change (Z.of_N 10) with 10%Z. lia. }
  pose proof (pow10_pos k) as H10. set (a := IZR (Z.of_N (n / 10 ^ N.of_nat k))) in *. set (b := IZR (Z.of_N (n mod 10 ^ N.of_nat k))) in *.
  assert (G : Rabs (a + b / 10 ^ k - v) <= / 2 / 10 ^ k).
  { replace (a + b / 10 ^ k - v) with ((a * 10 ^ k + b - v * 10 ^ k) / 10 ^ k) by (field; lra). rewrite <- HE.
    unfold Rdiv. rewrite Rabs_mult, (Rabs_pos_eq (/ 10 ^ k)) by (left; apply Rinv_0_lt_compat; auto). apply Rmult_le_compat_r; auto. left; apply Rinv_0_lt_compat; auto. }
  destruct s; cbn [minus String.eqb Ascii.eqb Bool.eqb].
  - replace (-1 * (a + b / 10 ^ k) - - v) with (- (a + b / 10 ^ k - v)) by ring. rewrite Rabs_Ropp. auto.
  - rewrite Rmult_1_l. auto.
Qed.
Lemma str_float_shows x k : (k <> 0)%nat -> is_fin x = true -> shows (str_float x k) k (f32_value x).
Proof.
  intros Hk Hx. destruct x as [s|s| |s m e]; try discriminate; cbn [str_float f32_value].
  - replace 0 with (if s then - 0 else 0) at 1 by (destruct s; lra). apply fixed_shows; auto. cbn. rewrite Rmult_0_l, Rminus_0_r, Rabs_R0. lra.
  - replace ((if s then -1 else 1) * IZR (Zpos m) * powerRZ 2 e) with (if s then - (IZR (Zpos m) * powerRZ 2 e) else IZR (Zpos m) * powerRZ 2 e) by (destruct s; ring).
    apply fixed_shows; auto. apply scaled_near.
Qed.
Lemma of_N_value n : (n <= 16777216)%N -> f32_value (f32_of_N n) = IZR (Z.of_N n).
Proof.
  intros H. destruct (N.eq_dec n 16777216) as [->|Hn].
  - rewrite f32_of_2p24. cbn [f32_value]. change (powerRZ 2 1) with (2 * 1). cbn [Z.of_N]. lra.
  - destruct (of_N_exact n ltac:(lia)) as (b & <- & V). rewrite B_val. auto.
Qed.
Lemma str_float_int n : (n <= 16777216)%N -> str_float (f32_of_N n) 0 = n_to_string n.
Proof.
  intros H. pose proof (of_N_value n H) as V. destruct (f32_of_N_small_fin n H) as [F _].
  destruct (N.eq_dec n 0) as [->|Hn]; [reflexivity|].
  assert (Hpos : 0 < IZR (Z.of_N n)) by (apply IZR_lt; lia).
  destruct (f32_of_N n) as [s|s| |s m e]; try discriminate; cbn [f32_value] in V; [lra|].
  assert (Hm : 0 < IZR (Zpos m) * powerRZ 2 e) by (apply Rmult_lt_0_compat; [apply IZR_lt; lia|apply powerRZ_lt; lra]).
  destruct s; [lra|]. cbn [str_float minus String.append fixed_point]. f_equal.
  pose proof (scaled_near 0 m e) as HN. rewrite Rmult_1_r in HN. replace (IZR (Zpos m) * powerRZ 2 e) with (IZR (Z.of_N n)) in HN by lra.
  rewrite <- minus_IZR in HN. apply N2Z.inj. set (z := (Z.of_N (scaled 0 m e) - Z.of_N n)%Z) in *. enough (z = 0%Z) by lia.
  assert (Hz : (-1 < z < 1)%Z). { pose proof (Rle_abs (IZR z)). pose proof (Rle_abs (- IZR z)) as HL. rewrite Rabs_Ropp in HL. split; apply lt_IZR; lra. } lia.
Qed.

(** ** The bar *)
Lemma remaining_fold f l : forall m, (m <= fold_left (fun m (is : nat * N) => N.max m (f is)) l m)%N /\
  (forall x, In x l -> (f x <= fold_left (fun m (is : nat * N) => N.max m (f is)) l m)%N) /\
  (forall u, (m <= u)%N -> (forall x, In x l -> (f x <= u)%N) -> (fold_left (fun m (is : nat * N) => N.max m (f is)) l m <= u)%N).
Proof.
  induction l as [|y l IH]; intros m; cbn [fold_left].
  - split; [lia|]. split; [intros x []|auto].
  - destruct (IH (N.max m (f y))) as (A & B & C). split; [lia|]. split.
    + intros x [->|Hx]; [lia|auto].
    + intros u Hu Hl. apply C; [|intros x Hx; apply Hl; cbn; auto]. specialize (Hl y (or_introl eq_refl)). lia.
Qed.
Close Scope R_scope.
Open Scope list_scope.

(** ** Reports show the best of what arrived *)
From Verif Require Import P_Climb1 P_Climb2 P_Climb3 P_Climb4.
Lemma in_sent i e log : In e (sent i log) <-> In (i, e) log.
Proof.
  unfold sent. rewrite in_map_iff. split.
  - intros ([j x] & <- & H). apply filter_In in H as [H E]. cbn in *. apply Nat.eqb_eq in E as ->. auto.
  - intros H. exists (i, e). split; auto. apply filter_In. split; auto. cbn. apply Nat.eqb_refl.
Qed.
Lemma in_bests b es : In b (bests es) <-> In (EvBest (b_sol b) (b_score b)) es.
Proof.
  unfold bests. rewrite in_flat_map. split.
  - intros (e & He & H). destruct e; cbn in H; try tauto. destruct H as [<-|[]]. auto.
  - intros H. eexists. split; [exact H|]. cbn. left. destruct b; auto.
Qed.
Lemma report_best pr P threads s log : session_ok pr P threads s -> from_workers s log ->
  let b := tp_best (aggregate (drain (empties s) log)) in
  (b = no_best \/ exists i, In (i, EvBest (b_sol b) (b_score b)) log /\ score_of pr P (b_sol b) = Ok (b_score b)) /\
  (score_finite (b_score b) = false -> b = no_best) /\
  forall i wk sol sc, nth_error (se_workers s) i = Some wk -> In (i, EvBest sol sc) log -> score_lt sc (b_score b) = false.
Proof.
  intros Hs Hlog b. unfold b. rewrite aggregate_ok. cbn [tp_best]. clear b.
  assert (HW : forall i wk, nth_error (se_workers s) i = Some wk -> forall x, In x (bests (sent i log)) -> scored pr P x).
  { intros i wk E x Hx. destruct (Hlog i wk E) as [rest Er]. apply (wo_scored _ _ _ (proj2 Hs wk (nth_error_In _ _ E))). rewrite Er, bests_app. apply in_or_app. auto. }
  assert (HT : forall i p, nth_error (drain (empties s) log) i = Some p ->
     exists wk, nth_error (se_workers s) i = Some wk /\ in_mode (p_greedy P) (b_score (tp_best p)) /\
      (tp_best p = no_best \/ In (tp_best p) (bests (sent i log))) /\ forall x, In x (bests (sent i log)) -> score_le (b_score (tp_best p)) (b_score x)).
  { intros i p Hp. destruct (drained_nth _ _ _ _ Hp) as [Ep [wk Ewk]]. exists wk. split; auto. subst p. rewrite fold_best.
    destruct (shown_ok (p_greedy P) (bests (sent i log)) no_best (no_best_mode _) (fun x Hx => scored_mode pr P x (HW i wk Ewk x Hx))) as (A1 & A2 & _ & A4).
    change (tp_best empty_progress) with no_best. split; auto. split; auto. destruct A2 as [A2|[A2 _]]; auto. }
  assert (HM : forall x, In x (map tp_best (drain (empties s) log)) -> in_mode (p_greedy P) (b_score x)).
  { intros x Hx. apply in_map_iff in Hx as (p & <- & Hp). apply In_nth_error in Hp as [i Hi]. destruct (HT i p Hi) as (wk & _ & M & _). auto. }
  destruct (shown_ok (p_greedy P) (map tp_best (drain (empties s) log)) no_best (no_best_mode _) HM) as (B1 & B2 & _ & B4).
  assert (HF : score_finite (b_score (shown no_best (map tp_best (drain (empties s) log)))) = false -> shown no_best (map tp_best (drain (empties s) log)) = no_best).
  { intros Hf. destruct B2 as [B2|[_ B3]]; auto. apply score_lt_finite in B3. congruence. }
  split; [|split; auto].
  - destruct B2 as [B2|[B2 B3]]; auto. apply in_map_iff in B2 as (p & Ep & Hp). apply In_nth_error in Hp as [i Hi]. destruct (HT i p Hi) as (wk & Ewk & _ & C & _).
    rewrite <- Ep. rewrite <- Ep in B3. destruct C as [C|C]; [rewrite C in B3; discriminate|]. right. exists i. split; [apply in_sent, in_bests; auto|]. apply (HW i wk Ewk _ C).
  - intros i wk sol sc Ewk He. apply score_le_not_lt.
    destruct (nth_error (drain (empties s) log) i) as [p|] eqn:Ep.
    + destruct (HT i p Ep) as (wk' & _ & M & _ & L). assert (Hb : In (mkBest sol sc) (bests (sent i log))) by (apply in_bests, in_sent; auto).
      apply (le_trans_mode (p_greedy P) _ (b_score (tp_best p))); auto.
      * apply (scored_mode pr P (mkBest sol sc)). eapply HW; eauto.
      * apply B4, in_map. eapply nth_error_In; eauto.
      * apply (L _ Hb).
    + exfalso. apply nth_error_None in Ep. rewrite drain_length in Ep. unfold empties in Ep. rewrite repeat_length in Ep. assert (i < length (se_workers s)) by (apply nth_error_Some; congruence). lia.
Qed.

(** ** [track] *)
Lemma watch_tps timeout starts md loop : forall tps, fst (watch timeout starts md tps loop) = drain tps (seen loop).
Proof.
  induction loop as [|g loop IH]; intros tps; [reflexivity|]. cbn [watch poll]. specialize (IH (drain tps (gl_arrived g))).
  destruct (watch _ _ _ _ _) as [t2 c2]. cbn [fst] in *. unfold seen. cbn [flat_map]. rewrite P_Threads.drain_app. auto.
Qed.
Lemma watch_positions timeout starts md loop : forall tps, positions (snd (watch timeout starts md tps loop)) = map (position_at timeout starts) loop.
Proof.
  induction loop as [|g loop IH]; intros tps; [reflexivity|]. cbn [watch poll]. specialize (IH (drain tps (gl_arrived g))).
  destruct (watch _ _ _ _ _) as [t2 c2]. cbn [snd] in *. unfold positions in *. cbn [flat_map app map]. rewrite IH. reflexivity.
Qed.
Lemma watch_messages timeout starts md loop : forall tps n m, nth_error (messages (snd (watch timeout starts md tps loop))) n = Some m ->
  exists g, nth_error loop n = Some g /\ m = message md (aggregate (drain tps (seen (firstn (S n) loop)))) (gl_lp g) (gl_depth g).
Proof.
  induction loop as [|g loop IH]; intros tps n m; cbn [watch poll]; [destruct n; discriminate|]. specialize (IH (drain tps (gl_arrived g))).
  destruct (watch _ _ _ _ _) as [t2 c2]. cbn [snd] in *. unfold messages in *. cbn [flat_map app]. destruct n as [|n]; cbn [nth_error].
  - intros [= <-]. exists g. split; auto. unfold seen. cbn [firstn flat_map]. rewrite app_nil_r. auto.
  - intros H. destruct (IH n m H) as (g' & Hg & ->). exists g'. split; auto. unfold seen. cbn [firstn flat_map]. rewrite P_Threads.drain_app. auto.
Qed.
Lemma positions_app a b : positions (a ++ b) = positions a ++ positions b. Proof. apply flat_map_app. Qed.
Lemma messages_app a b : messages (a ++ b) = messages a ++ messages b. Proof. apply flat_map_app. Qed.
Lemma track_ok timeout starts md tps first loop last res calls r : track timeout starts md tps first loop last res = (calls, r) ->
  positions calls = map (position_at timeout starts) (loop ++ (match res with Ok _ => [last] | _ => [] end)) /\
  (forall n m, nth_error (messages calls) n = Some m -> exists g, nth_error (first :: loop) n = Some g /\
     m = message md (aggregate (drain tps (seen (firstn (S n) (first :: loop))))) (gl_lp g) (gl_depth g)) /\
  (forall sol line, r = Ok (sol, line) -> res = Ok sol /\
     let p := aggregate (drain tps (seen (first :: loop ++ [last]))) in
     line = match sol with SolInvalid => "No solution found." | _ => ("Solved " ++ summary md p (gl_lp last) (gl_depth last))%string end).
Proof.
  unfold track. cbn [poll]. pose proof (watch_tps timeout starts md loop (drain tps (gl_arrived first))) as W1. pose proof (watch_positions timeout starts md loop (drain tps (gl_arrived first))) as W2.
  pose proof (watch_messages timeout starts md loop (drain tps (gl_arrived first))) as W3.
  destruct (watch _ _ _ _ _) as [t2 c2]. cbn [fst snd] in *. subst t2. rewrite <- !P_Threads.drain_app.
  assert (HM : forall n m, nth_error (message md (aggregate (drain tps (gl_arrived first))) (gl_lp first) (gl_depth first) :: messages c2) n = Some m ->
    exists g, nth_error (first :: loop) n = Some g /\ m = message md (aggregate (drain tps (seen (firstn (S n) (first :: loop))))) (gl_lp g) (gl_depth g)).
  { intros [|n] m; cbn [nth_error].
    - intros [= <-]. exists first. split; auto. unfold seen. cbn [firstn flat_map]. rewrite app_nil_r. auto.
    - intros H. destruct (W3 n m H) as (g & Hg & ->). exists g. split; auto. unfold seen. cbn [firstn flat_map]. rewrite P_Threads.drain_app. auto. }
  destruct res as [sol|e|]; intros [= <- <-].
  - split; [|split].
    + unfold positions at 1. cbn [flat_map app]. fold positions. change (flat_map _ (c2 ++ _)) with (positions (c2 ++ [SetPosition (position_at timeout starts last); FinishAndClear])).
      rewrite positions_app, W2, map_app. reflexivity.
    + unfold messages at 1. cbn [flat_map app]. change (flat_map _ (c2 ++ _)) with (messages (c2 ++ [SetPosition (position_at timeout starts last); FinishAndClear])).
      rewrite messages_app. cbn [messages flat_map app]. rewrite app_nil_r. exact HM.
    + intros sol' line [= <- <-]. split; auto. cbn zeta. unfold seen. cbn [flat_map]. rewrite flat_map_app. cbn [flat_map]. rewrite app_nil_r, ?app_assoc. reflexivity.
  - split; [|split; [|discriminate]].
    + unfold positions at 1. cbn [flat_map app]. change (flat_map _ (c2 ++ _)) with (positions (c2 ++ [FinishAndClear])). rewrite positions_app, W2. cbn [positions flat_map app]. rewrite !app_nil_r. reflexivity.
    + unfold messages at 1. cbn [flat_map app]. change (flat_map _ (c2 ++ _)) with (messages (c2 ++ [FinishAndClear])). rewrite messages_app. cbn [messages flat_map app]. rewrite app_nil_r. exact HM.
  - split; [|split; [|discriminate]].
    + unfold positions at 1. cbn [flat_map app]. fold (positions c2). rewrite W2, app_nil_r. auto.
    + exact HM.
Qed.

(** ** The bar *)
Lemma position_bound timeout rem : (bar_position timeout rem <= bar_length timeout)%N.
Proof. unfold bar_position, bar_length. lia. Qed.
Lemma remaining_anti timeout starts c1 c2 : (forall i, (c1 i <= c2 i)%N) -> (remaining_ms timeout starts c2 <= remaining_ms timeout starts c1)%N.
Proof.
  intros H. unfold remaining_ms. set (l := combine _ _). apply remaining_fold; [lia|]. intros x Hx.
  destruct (remaining_fold (fun is => worker_remaining timeout (snd is) (c1 (fst is))) l 0%N) as (_ & B & _). specialize (B x Hx).
  etransitivity; [|exact B]. unfold worker_remaining. apply N.min_le_compat_r. apply N.div_le_mono; [discriminate|]. specialize (H (fst x)). lia.
Qed.
Lemma position_mono timeout starts g1 g2 : (forall i, (gl_clock g1 i <= gl_clock g2 i)%N) -> (position_at timeout starts g1 <= position_at timeout starts g2)%N.
Proof. intros H. unfold position_at, bar_position. pose proof (remaining_anti timeout starts _ _ H). lia. Qed.
Lemma position_exact timeout t0 n t g : (timeout <= i32_max)%Z -> n <> 0 -> (forall i, gl_clock g i = t) ->
  position_at timeout (repeat t0 n) g = N.min ((t - t0 + 999999) / 1000000) (Z.to_N timeout * 1000).
Proof.
  intros HT Hn Hc. assert (ER : remaining_ms timeout (repeat t0 n) (gl_clock g) = worker_remaining timeout t0 t).
  { unfold remaining_ms. set (l := combine _ _).
    assert (Hl : forall x, In x l -> snd x = t0). { intros [i y] Hx. apply in_combine_r in Hx. apply repeat_spec in Hx. auto. }
    apply N.le_antisymm.
    - apply remaining_fold; [lia|]. intros x Hx. rewrite (Hl x Hx), Hc. lia.
    - assert (Hi : In (0, t0) l) by (unfold l; destruct n; [congruence|]; cbn; auto).
      destruct (remaining_fold (fun is => worker_remaining timeout (snd is) (gl_clock g (fst is))) l 0%N) as (_ & B & _). specialize (B _ Hi). cbn [fst snd] in B. rewrite Hc in B. auto. }
  unfold position_at, bar_position, timeout_ms. rewrite ER. unfold worker_remaining, timeout_ns. unfold i32_max in HT.
  replace (Z.to_N (Z.max timeout 0)) with (Z.to_N timeout) by lia. set (T := Z.to_N timeout) in *. assert (HTT : (T <= 2147483647)%N) by lia. clearbody T.
  set (e := (t - t0)%N). clearbody e. pose proof (N.div_mod (T * 1000000000 - e) 1000000 ltac:(discriminate)) as D1. pose proof (N.mod_upper_bound (T * 1000000000 - e) 1000000 ltac:(discriminate)) as D2.
  pose proof (N.div_mod (e + 999999) 1000000 ltac:(discriminate)) as D3. pose proof (N.mod_upper_bound (e + 999999) 1000000 ltac:(discriminate)) as D4.
  set (q := ((T * 1000000000 - e) / 1000000)%N) in *. set (r := ((T * 1000000000 - e) mod 1000000)%N) in *. set (q' := ((e + 999999) / 1000000)%N) in *. set (r' := ((e + 999999) mod 1000000)%N) in *.
  clearbody q r q' r'. lia.
Qed.
