(** Facts about riffling and shuffling. *)
From Verif Require Import Base M_Rng.
From Coq Require Import Permutation.

Definition zerob (n : nat) : bool := n =? 0.
Lemma riffle_ok {A} p : forall (l r : list A),
  length (filter zerob p) = length l -> length (filter (fun n => negb (zerob n)) p) = length r ->
  exists res, riffle p l r = Ok res /\ Permutation (l ++ r) res.
Proof.
  induction p as [|n p IH]; intros l r HL HR; cbn in HL, HR.
  - destruct l, r; cbn in *; try lia. exists []. auto.
  - destruct n as [|n]; cbn in HL, HR; cbn [riffle].
    + destruct l as [|x l]; cbn in HL; [lia|]. destruct (IH l r) as (res & -> & HP); try lia. cbn [bind].
      exists (x :: res). split; auto. cbn. constructor; auto.
    + destruct r as [|x r]; cbn in HR; [lia|]. destruct (IH l r) as (res & -> & HP); try lia. cbn [bind].
      exists (x :: res). split; auto. rewrite <- Permutation_middle. constructor; auto.
Qed.
Lemma perm_filter {A} (f : A -> bool) l m : Permutation l m -> Permutation (filter f l) (filter f m).
Proof.
  induction 1; cbn; auto.
  - destruct (f x); auto.
  - destruct (f x), (f y); auto. constructor.
  - etransitivity; eauto.
Qed.
Lemma filter_repeat {A} (f : A -> bool) x n : filter f (repeat x n) = if f x then repeat x n else [].
Proof. destruct (f x) eqn:E; induction n as [|n IH]; cbn; auto; rewrite E; rewrite ?IH; auto. Qed.
Lemma pattern_counts o t a b : fair o ->
  length (filter zerob (o_shuffle o t (repeat 0 a ++ repeat 1 b))) = a /\
  length (filter (fun n => negb (zerob n)) (o_shuffle o t (repeat 0 a ++ repeat 1 b))) = b.
Proof.
  intros HF. pose proof (fair_shuffle o HF t (repeat 0 a ++ repeat 1 b)) as HP. split.
  - rewrite <- (Permutation_length (perm_filter zerob _ _ HP)), filter_app, !filter_repeat. cbn. rewrite app_nil_r, repeat_length. auto.
  - rewrite <- (Permutation_length (perm_filter (fun n => negb (zerob n)) _ _ HP)), filter_app, !filter_repeat. cbn. rewrite repeat_length. auto.
Qed.
Lemma riffle_shuffle_perm {A} o t (l r : list A) : fair o -> exists res, riffle_shuffle o t l r = Ok res /\ Permutation (l ++ r) res.
Proof. intros HF. apply riffle_ok; apply pattern_counts; auto. Qed.

(** The range of [next_in_range]. *)
Lemma next_in_range_ok pr sample lo hi : (i32_min <= sample <= i32_max)%Z -> (i32_min <= lo)%Z -> (hi <= i32_max)%Z ->
  (lo < hi)%Z -> (hi - lo <= i32_max)%Z -> exists z, next_in_range pr sample lo hi = Ok z /\ (lo <= z < hi)%Z.
Proof.
  unfold i32_min, i32_max. intros HS HL HH HLH HW. unfold next_in_range, i32_wrap, rem_euclid, i32_min, i32_max.
  destruct (Z.leb_spec (-2147483648) (hi - lo)); [|lia]. destruct (Z.leb_spec (hi - lo) 2147483647); [|lia]. cbn [andb bind].
  destruct (Z.eqb_spec (hi - lo) 0); [lia|]. destruct (Z.eqb_spec (hi - lo) (-1)); [lia|]. rewrite andb_false_r. cbn [bind].
  rewrite Z.abs_eq by lia. pose proof (Z.mod_pos_bound sample (hi - lo) ltac:(lia)).
  destruct (Z.leb_spec (-2147483648) (lo + sample mod (hi - lo))); [|lia].
  destruct (Z.leb_spec (lo + sample mod (hi - lo)) 2147483647); [|lia]. cbn [andb].
  eexists; split; [reflexivity|lia].
Qed.
