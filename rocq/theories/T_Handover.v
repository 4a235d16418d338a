(** Property theorems: C95, the numbers at the border of the LP library. *)
From Verif Require Import Base M_Data Spec M_Critical M_Flow Spec_Flow M_Warn Spec_Warn P_Warn M_Handover Spec_Handover P_Handover.
From Verif Require P_Brute T_Input T_Flow.
From Coq Require Import Floats.SpecFloat Reals Lra.
Notation length := Datatypes.length.
Notation get := Base.get.
Import ListNotations.
Open Scope list_scope.

(** ** C95: whatever the power function (exponent) and the preferences, every number of
    every instance arrives as the integer the solver means, except costs cut off at
    the largest 64-bit integer, which arrive as 2^63. *)
Theorem C95_numbers_arrive :
  forall (pr : profile) (d : input_data) (sd : static) (pow : f64 -> f64) (st : sched_state) (limit : N) (f : flow),
    (forall x, genuine (pow x)) -> new_static d = Ok sd -> build_flow pr d sd (edge_cost pow) st limit = Ok f ->
    (forall e, In e (fl_edges f) ->
       arrives (lp_number (e_max e)) (e_max e) /\
       (~ cut_off e -> arrives (lp_factor (e_cost e)) (e_cost e)) /\ (cut_off e -> arrives (lp_factor (e_cost e)) (2 ^ 63))) /\
    (forall s, In s (fl_supply f) -> arrives (lp_number s) s).
Proof.
  intros pr d sd pow st limit f HG HS HB. destruct (numbers_built _ _ _ _ _ _ _ HS HB) as [H1 H2]. split.
  - intros e He. destruct (H1 e He) as [Hm Hc]. split; [|split].
    + apply number_arrives. unfold i32_min, i32_max in Hm. lia.
    + intros Hn. unfold lp_factor, cut_off in *. destruct Hc as [->|[v Ev]]; [apply number_arrives; lia|].
      unfold edge_cost in Ev. rewrite Ev in *. apply truncated; [apply HG|exact Hn].
    + intros ->. right. split; [exists false, (2 ^ 52)%positive, 11%Z; vm_compute; reflexivity|].
      change (lp_factor (2 ^ 63 - 1)) with (S754_finite false (2 ^ 52) 11). cbn [f64_value]. change (powerRZ 2 11) with (IZR 2 ^ 11)%R.
      rewrite pow_IZR, Rmult_1_l, <- mult_IZR. f_equal.
  - intros s Hs. apply number_arrives. specialize (H2 s Hs). unfold i32_max in H2. lia.
Qed.
Print Assumptions C95_numbers_arrive.

Lemma total_is_objective f x : total_cost (fl_edges f) x = objective f x.
Proof.
  unfold objective. generalize (fl_edges f). intros es. revert x. induction es as [|e es IH]; intros [|v x]; cbn [total_cost combine]; auto.
  rewrite IH. reflexivity.
Qed.
(** Unless a cost is cut off, what the library minimizes is, at every point with
    integer values, the total cost the solver means. *)
Theorem C95_objective_is_total_cost :
  forall (pr : profile) (d : input_data) (sd : static) (pow : f64 -> f64) (st : sched_state) (limit : N) (f : flow) (x : list Z),
    (forall y, genuine (pow y)) -> new_static d = Ok sd -> build_flow pr d sd (edge_cost pow) st limit = Ok f ->
    (forall e, In e (fl_edges f) -> ~ cut_off e) ->
    library_objective (fl_edges f) x = IZR (total_cost (fl_edges f) x) /\ total_cost (fl_edges f) x = objective f x.
Proof.
  intros pr d sd pow st limit f x HG HS HB Hcut. split; [|apply total_is_objective].
  destruct (C95_numbers_arrive pr d sd pow st limit f HG HS HB) as [H1 _].
  assert (G : forall e, In e (fl_edges f) -> f64_value (lp_factor (e_cost e)) = IZR (e_cost e)).
  { intros e He. apply arrives_value. apply (H1 e He). auto. }
  clear - G. revert x G. generalize (fl_edges f). intros es. induction es as [|e es IH]; intros [|v x] G; cbn [library_objective total_cost]; auto.
  rewrite plus_IZR, mult_IZR, IH; [|intros e' He'; apply G; right; exact He']. rewrite G by (left; reflexivity). reflexivity.
Qed.
Print Assumptions C95_objective_is_total_cost.

(** If the library's answers lie within a half of a feasible point, the solver reads
    exactly this point. *)
Theorem C95_answers_are_read_back :
  forall (pr : profile) (d : input_data) (sd : static) (cost : N -> Z) (st : sched_state) (limit : N) (f : flow) (ys : list f64) (x : list Z),
    new_static d = Ok sd -> build_flow pr d sd cost st limit = Ok f ->
    feasible_point f x -> Forall genuine ys -> close_to ys x -> map lp_answer ys = x.
Proof.
  intros pr d sd cost st limit f ys x HS HB HF HGs HC. destruct (numbers_built _ _ _ _ _ _ _ HS HB) as [H1 _].
  assert (R : Forall (fun z => (i32_min <= z <= i32_max)%Z) x).
  { apply Forall_forall. intros z Hz. apply In_nth_error in Hz as [i Hi].
    destruct (nth_error (fl_edges f) i) as [e|] eqn:Ee.
    - pose proof (fp_bounds _ _ HF i e z Ee Hi) as B. apply nth_error_In in Ee. apply H1 in Ee as [Hm _]. unfold i32_min in *. lia.
    - apply nth_error_None in Ee. rewrite <- (fp_length _ _ HF) in Ee. apply nth_error_None in Ee. congruence. }
  clear HF HB H1. revert HGs R. induction HC as [|y z ys x (A & B & C) HC IH]; intros HGs R; cbn [map]; auto.
  inversion HGs; subst. inversion R; subst. f_equal; auto. apply answer_read; auto.
Qed.
Print Assumptions C95_answers_are_read_back.

(** *** Concrete case: the instance of T_Flow's example, with exponent 3. *)
Lemma genuine_Z z : genuine (f64_of_Z z).
Proof.
  unfold f64_of_Z, prec64, emax64. rewrite normalize_equiv. generalize (BinarySingleNaN.binary_normalize 53 1024 Hprec Hmax BinarySingleNaN.mode_NE z 0 false).
  intros b. destruct b as [s|s| |s m e Hb]; cbn [BinarySingleNaN.B2SF genuine]; auto.
Qed.
Definition st95 : sched_state := Eval vm_compute in match scratch_state Debug T_Input.d1 T_Flow.sd1 T_Input.S1 with Ok st => st | _ => mkSS [] [] [] [] end.
Definition f95 : flow := Eval vm_compute in match build_flow Debug T_Input.d1 T_Flow.sd1 (edge_cost (pow_whole 3)) st95 9 with Ok f => f | _ => mkFlow [] [] [] [] [] end.
Definition x95 : list Z := [0; 1; 1; 1; 0; 1; 0; 1; 0; 1; 0; 1; 1; 0; 0]%Z.
Example C95_witness : (forall y, genuine (pow_whole 3 y)) /\ new_static T_Input.d1 = Ok T_Flow.sd1 /\
  build_flow Debug T_Input.d1 T_Flow.sd1 (edge_cost (pow_whole 3)) st95 9 = Ok f95 /\ feasible_point f95 x95 /\ x95 <> [] /\
  (forall e, In e (fl_edges f95) -> ~ cut_off e) /\ (exists e, In e (fl_edges f95) /\ (1 < e_cost e)%Z) /\
  Forall genuine (map f64_of_Z x95) /\ close_to (map f64_of_Z x95) x95.
Proof.
  split; [intros y; apply genuine_Z|]. split; [exact T_Flow.d1_static|]. split; [vm_compute; reflexivity|].
  assert (HV : In x95 (P_Brute.vectors (fl_edges f95))).
  { apply P_Brute.vectors_in. split; [reflexivity|]. intros i e v He Hv. unfold f95, x95 in *. cbn [fl_edges] in He.
    repeat (destruct i as [|i]; [cbn in He, Hv; injection He as <-; injection Hv as <-; cbn; lia|]). cbn in He. destruct i; discriminate. }
  split; [apply P_Brute.feasible_b_ok; [exact HV|vm_compute; reflexivity]|]. split; [discriminate|].
  assert (HC : forallb (fun e => negb (e_cost e =? 2 ^ 63 - 1)%Z) (fl_edges f95) = true) by (vm_compute; reflexivity).
  split. { intros e He. rewrite forallb_forall in HC. specialize (HC e He). apply Bool.negb_true_iff, Z.eqb_neq in HC. exact HC. }
  assert (HE : existsb (fun e => 1 <? e_cost e)%Z (fl_edges f95) = true) by (vm_compute; reflexivity).
  split. { apply existsb_exists in HE as (e & He & Hc). apply Z.ltb_lt in Hc. exists e. split; auto. }
  split; [apply Forall_forall; intros y Hy; apply in_map_iff in Hy as (z & <- & _); apply genuine_Z|].
  assert (HX : Forall (fun z => (Z.abs z <= 2 ^ 53)%Z) x95) by (repeat constructor; cbn; lia).
  clear - HX. induction HX as [|z l Hz HX IH]; cbn [map]; [constructor|]. constructor; [|exact IH].
  pose proof (number_arrives z Hz) as A. split; [|split].
  - intros s E. rewrite E in A. destruct A as [(s' & A & _)|[(s' & m & e & A) _]]; discriminate.
  - intros E. rewrite E in A. destruct A as [(s' & A & _)|[(s' & m & e & A) _]]; discriminate.
  - rewrite (arrives_value _ _ A). unfold Rminus. rewrite Rplus_opp_r, Rabs_R0. lra.
Qed.
(** A large exponent: 10^20 is beyond 2^63. *)
Example C95_cut_off_witness : edge_cost (pow_whole 20) 9 = (2 ^ 63 - 1)%Z /\ lp_factor (2 ^ 63 - 1) = f64_of_Z (2 ^ 63) /\
  edge_cost (pow_whole 18) 9 = (10 ^ 18)%Z /\ f64_value (lp_factor (10 ^ 18)) = IZR (10 ^ 18) /\ lp_answer (f64_of_Z 1) = 1%Z.
Proof.
  split; [vm_compute; reflexivity|]. split; [vm_compute; reflexivity|]. split; [vm_compute; reflexivity|]. split; [|vm_compute; reflexivity].
  assert (G : genuine (f64_of_Z (10 ^ 18))) by apply genuine_Z. destruct (truncated _ G) as [_ T].
  replace (f64_to_i64 (f64_of_Z (10 ^ 18))) with (10 ^ 18)%Z in T by (vm_compute; reflexivity). apply arrives_value. apply T. lia.
Qed.
