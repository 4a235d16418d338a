(** Sums over the choices of a slot. *)
From Verif Require Import Base M_Data Spec P_Scoring P_Feasible Spec_Search.
From Coq Require Import Permutation.

Definition lsum (f : nat -> N) (l : list nat) : N := fold_right (fun c t => (f c + t)%N) 0%N l.
Lemma lsum_cons f a l : lsum f (a :: l) = (f a + lsum f l)%N.
Proof. reflexivity. Qed.
Lemma lsum_app f l m : lsum f (l ++ m) = (lsum f l + lsum f m)%N.
Proof. induction l as [|a l IH]; cbn [app]; rewrite ?lsum_cons, ?IH; [reflexivity|lia]. Qed.
Lemma lsum_perm f l m : Permutation l m -> lsum f l = lsum f m.
Proof. induction 1; rewrite ?lsum_cons; try lia; congruence. Qed.
Lemma lsum_ext f g l : (forall c, In c l -> f c = g c) -> lsum f l = lsum g l.
Proof. induction l as [|a l IH]; intros H; auto. rewrite !lsum_cons, (H a) by (left; auto). rewrite IH; auto. intros; apply H; right; auto. Qed.
Lemma lsum_le f g l : (forall c, In c l -> f c <= g c)%N -> (lsum f l <= lsum g l)%N.
Proof.
  induction l as [|a l IH]; intros H; [cbn; lia|]. rewrite !lsum_cons.
  pose proof (H a (or_introl eq_refl)). assert (lsum f l <= lsum g l)%N by (apply IH; intros; apply H; right; auto). lia.
Qed.
Lemma lsum_in f l c : In c l -> (f c <= lsum f l)%N.
Proof. induction l as [|a l IH]; intros H; [destruct H|]. rewrite lsum_cons. destruct H as [->|H]; [lia|]. specialize (IH H). lia. Qed.

(** What one choice adds to slot [s] when placed at [x]. *)
Definition weigh (f : choice_data -> N) (ch : choice_data) (x : option nat) (s : nat) : N :=
  match x with Some t => if t =? s then f ch else 0%N | None => 0%N end.
Definition contrib (f : choice_data -> N) (cs : list choice_data) (S : scheduling) (s c : nat) : N :=
  match nth_error cs c, nth_error S c with
  | Some ch, Some x => weigh f ch x s
  | _, _ => 0%N
  end.

Lemma lsum_map f g l : lsum f (map g l) = lsum (fun x => f (g x)) l.
Proof. induction l as [|a l IH]; cbn [map]; rewrite ?lsum_cons, ?IH; auto. Qed.
Lemma slot_sum_lsum f cs : forall S s, length S = length cs -> slot_sum f cs S s = lsum (contrib f cs S s) (seq 0 (length cs)).
Proof.
  induction cs as [|c cs IH]; intros [|x S] s H; cbn in H; try lia; auto.
  cbn [slot_sum length seq]. rewrite lsum_cons, <- seq_shift, lsum_map, IH by lia. reflexivity.
Qed.
Lemma weigh_le f ch x s : (weigh f ch x s <= f ch)%N.
Proof. unfold weigh. destruct x as [t|]; [destruct (t =? s)|]; lia. Qed.
Lemma contrib_upd_same f cs S s c x ch : c < length S -> nth_error cs c = Some ch -> contrib f cs (upd S c x) s c = weigh f ch x s.
Proof. intros H E. unfold contrib. rewrite E, nth_error_upd_same; auto. Qed.
Lemma contrib_upd_other f cs S s c c' x : c <> c' -> contrib f cs (upd S c x) s c' = contrib f cs S s c'.
Proof. intros H. unfold contrib. rewrite nth_error_upd_other; auto. Qed.

Lemma slot_sum_upd f cs : forall S c s x y ch, nth_error S c = Some y -> nth_error cs c = Some ch ->
  (slot_sum f cs (upd S c x) s + weigh f ch y s = slot_sum f cs S s + weigh f ch x s)%N.
Proof.
  induction cs as [|a cs IH]; intros [|z S] [|c] s x y ch HS HC; cbn in HS, HC; try discriminate; cbn [upd slot_sum].
  - injection HS as ->. injection HC as ->. unfold weigh. lia.
  - specialize (IH S c s x y ch HS HC). lia.
Qed.

Lemma slot_sum_total f d S s : length S = length (i_choices d) -> (slot_sum f (i_choices d) S s <= total f d)%N.
Proof.
  unfold total. revert S. induction (i_choices d) as [|c cs IH]; intros [|x S] H; cbn in H; try lia; [cbn; lia|].
  cbn [slot_sum fold_right]. specialize (IH S ltac:(lia)). pose proof (weigh_le f c x s). unfold weigh in H0. lia.
Qed.
Lemma total_lsum f d : total f d = lsum (fun c => match nth_error (i_choices d) c with Some ch => f ch | None => 0%N end) (seq 0 (length (i_choices d))).
Proof.
  unfold total. induction (i_choices d) as [|c cs IH]; auto.
  cbn [fold_right length seq]. rewrite lsum_cons, <- seq_shift, lsum_map, IH. reflexivity.
Qed.

(** The number of choices of a slot as a sum. *)
Definition one (_ : choice_data) : N := 1%N.
Lemma slot_sum_one cs : forall S s, length S = length cs ->
  slot_sum one cs S s = N.of_nat (length (filter (in_slotb S s) (seq 0 (length cs)))).
Proof.
  induction cs as [|c cs IH]; intros [|x S] s H; cbn in H; try lia; auto.
  cbn [slot_sum length seq filter]. rewrite <- seq_shift.
  assert (E : filter (in_slotb (x :: S) s) (map Datatypes.S (seq 0 (length cs))) = map Datatypes.S (filter (in_slotb S s) (seq 0 (length cs)))).
  { generalize (seq 0 (length cs)) as l. induction l as [|a l IHl]; auto. cbn [map filter].
    change (in_slotb (x :: S) s (Datatypes.S a)) with (in_slotb S s a). rewrite IHl. destruct (in_slotb S s a); auto. }
  rewrite E, IH by lia. unfold in_slotb at 2. cbn [nth_error].
  destruct x as [t|]; cbn [opt_nat_eqb]; [destruct (t =? s)|]; cbn [length]; rewrite map_length; unfold one; lia.
Qed.
Lemma cardinal_slot_sum d S s : length S = length (i_choices d) ->
  exists m, cardinal (fun c => scheduled_in S c s) m /\ N.of_nat m = slot_sum one (i_choices d) S s.
Proof.
  intros H. eexists. split; [apply (cardinal_slot d S s H)|]. unfold n_choices. symmetry. apply slot_sum_one; auto.
Qed.
