(** Cost of an assignment in the LP against its cost in the score. *)
From Verif Require Import Base M_Data M_Scoring Spec Spec_Score Spec_Flow Spec_Cost P_Minor.
From Coq Require Import Reals Lra Floats.SpecFloat.
Local Open Scope R_scope.

Fixpoint rows_total (d : input_data) (cost : N -> Z) (p : nat) (rows : list (list nat)) : Z :=
  match rows with [] => 0%Z | r :: t => (row_cost d cost p r + rows_total d cost (S p) t)%Z end.
Lemma assignment_cost_rows d cost : forall rows p,
  fold_right Z.add 0%Z (map (fun pr => row_cost d cost (fst pr) (snd pr)) (combine (seq p (length rows)) rows)) = rows_total d cost p rows.
Proof. induction rows as [|r t IH]; intros p; cbn [length seq combine map fold_right rows_total fst snd]; auto. rewrite IH. auto. Qed.

Lemma preference_le d p c : wf_input d -> (preference d p c <= i_max_pref d)%N.
Proof.
  intros HW. unfold preference. destruct (nth_error (i_choosers d) p) as [ch|] eqn:E; [|lia].
  destruct (nth_in_or_default c (cs_prefs ch) 0%N) as [Hin | ->]; [|lia]. eapply wf_max; eauto. eapply nth_error_In; eauto.
Qed.
Lemma row_affine d cost pow a b p row :
  (forall y, (y <= i_max_pref d)%N -> IZR (cost y) = a * f32_value (pow (f32_of_N y)) + b) ->
  wf_input d ->
  IZR (row_cost d cost p row) = a * fold_right Rplus 0 (map (fun c => f32_value (pow (f32_of_N (preference d p c)))) row) + INR (length row) * b.
Proof.
  intros H HW. unfold row_cost. induction row as [|c row IH]; [cbn; ring|]. cbn [map fold_right]. change (length (c :: row)) with (Datatypes.S (length row)). rewrite S_INR, plus_IZR, IH.
  change (pref_at d p c) with (preference d p c). rewrite H; [ring|]. apply preference_le; auto.
Qed.

Lemma rows_affine d cost pow a b k :
  (forall y, (y <= i_max_pref d)%N -> IZR (cost y) = a * f32_value (pow (f32_of_N y)) + b) ->
  wf_input d -> forall rows p, (forall r, In r rows -> length r = k) ->
  IZR (rows_total d cost p rows) = a * rows_cost pow d p rows + INR (length rows) * (INR k * b).
Proof.
  intros H HW. induction rows as [|r rows IH]; intros p Hk; [cbn; ring|]. cbn [rows_total rows_cost]. change (length (r :: rows)) with (Datatypes.S (length rows)). rewrite S_INR.
  rewrite plus_IZR, (row_affine d cost pow a b) by auto. rewrite IH by (intros; apply Hk; right; auto). rewrite (Hk r (or_introl eq_refl)). ring.
Qed.

Lemma cheaper_means_cheaper d cost pow a b A B :
  0 < a -> (forall y, (y <= i_max_pref d)%N -> IZR (cost y) = a * f32_value (pow (f32_of_N y)) + b) ->
  wf_input d -> length A = length (i_choosers d) -> length B = length (i_choosers d) ->
  (forall r, In r A -> length r = length (i_slots d)) -> (forall r, In r B -> length r = length (i_slots d)) ->
  (assignment_cost d cost A <= assignment_cost d cost B)%Z ->
  rows_cost pow d 0 A <= rows_cost pow d 0 B.
Proof.
  intros Ha H HW LA LB RA RB. unfold assignment_cost. rewrite !assignment_cost_rows. intros HC. apply IZR_le in HC.
  rewrite (rows_affine d cost pow a b (length (i_slots d)) H HW A 0 RA), (rows_affine d cost pow a b (length (i_slots d)) H HW B 0 RB), LA, LB in HC.
  apply Rmult_le_reg_l with a; auto. lra.
Qed.
