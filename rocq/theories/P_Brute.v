(** An exact library exists: trying every point.  Used only to show that the
    hypotheses on the library can be met. *)
From Verif Require Import Base M_Data M_Flow P_Flow6 Spec_Calls P_Flow7.

Fixpoint vectors (es : list edge) : list (list Z) :=
  match es with
  | [] => [[]]
  | e :: t => flat_map (fun v => map (cons v) (vectors t)) (map Z.of_nat (seq 0 (Z.to_nat (e_max e + 1))))
  end.
Definition opt_z_eqb (x : option Z) (v : Z) : bool := match x with Some y => (y =? v)%Z | None => false end.
Definition feasible_b (f : flow) (x : list Z) : bool :=
  forallb (fun g => forallb (fun i => opt_z_eqb (nth_error x i) 0) g || forallb (fun i => opt_z_eqb (nth_error x i) 1) g) (fl_groups f) &&
  forallb (fun i => opt_z_eqb (nth_error x i) 0) (fl_blocked f) &&
  forallb (fun ns => (inflow f x (fst ns) - outflow f x (fst ns) =? - snd ns)%Z) (combine (seq 0 (length (fl_supply f))) (fl_supply f)).
Fixpoint cheapest_of (f : flow) (l : list (list Z)) : option (list Z) :=
  match l with
  | [] => None
  | x :: t => match cheapest_of f t with
              | Some y => if (objective f x <=? objective f y)%Z then Some x else Some y
              | None => Some x
              end
  end.
Definition brute_lp (f : flow) : option (nat -> Z) :=
  match cheapest_of f (filter (feasible_b f) (vectors (fl_edges f))) with Some x => Some (fun i => nth i x 0%Z) | None => None end.
Definition brute_env (late : nat -> bool) : env := mkEnv late (fun _ f => brute_lp f).

Lemma vectors_in es : forall x, In x (vectors es) <-> length x = length es /\ forall i e v, nth_error es i = Some e -> nth_error x i = Some v -> (0 <= v <= e_max e)%Z.
Proof.
  induction es as [|e es IH]; intros x; cbn [vectors].
  - split.
    + intros [<-|[]]. split; auto. intros [|i]; discriminate.
    + intros [H _]. destruct x; [left; auto|discriminate].
  - rewrite in_flat_map. split.
    + intros (v & Hv & Hx). apply in_map_iff in Hx as (y & <- & Hy). apply IH in Hy as [HL HB]. split; [cbn; lia|].
      apply in_map_iff in Hv as (k & <- & Hk). apply in_seq in Hk. intros [|i] e' v' He Hv'; cbn in He, Hv'.
      * injection He as <-. injection Hv' as <-. lia.
      * eapply HB; eauto.
    + intros [HL HB]. destruct x as [|v x]; [discriminate|]. exists v. split.
      * apply in_map_iff. exists (Z.to_nat v). pose proof (HB 0 e v eq_refl eq_refl) as H. split; [lia|]. apply in_seq. lia.
      * apply in_map. apply IH. split; [cbn in HL; lia|]. intros i e' v' He Hv'. apply (HB (S i)); auto.
Qed.
Lemma opt_z_eqb_ok x v : opt_z_eqb x v = true <-> x = Some v.
Proof. destruct x as [y|]; cbn; [|split; discriminate]. rewrite Z.eqb_eq. split; [intros ->; auto|intros E; injection E; auto]. Qed.
Lemma in_combine_nth {A} (l : list A) k n x : In (n, x) (combine (seq k (length l)) l) <-> k <= n /\ nth_error l (n - k) = Some x.
Proof.
  revert k; induction l as [|a l IH]; intros k; cbn [length seq combine In].
  - split; [intros []|]. intros [_ H]. destruct (n - k); discriminate.
  - rewrite IH. split.
    + intros [E|[H1 H2]]; [injection E as <- <-; rewrite Nat.sub_diag; auto|]. split; [lia|]. replace (n - k) with (S (n - S k)) by lia. auto.
    + intros [H1 H2]. destruct (Nat.eq_dec n k) as [->|Hne]; [rewrite Nat.sub_diag in H2; injection H2 as <-; auto|]. right. split; [lia|].
      replace (n - k) with (S (n - S k)) in H2 by lia. auto.
Qed.
Lemma feasible_b_ok f x : In x (vectors (fl_edges f)) -> feasible_b f x = true <-> feasible_point f x.
Proof.
  intros Hx. apply vectors_in in Hx as [HL HB]. unfold feasible_b. rewrite !andb_true_iff, !forallb_forall. split.
  - intros [[H1 H2] H3]. constructor; auto.
    + intros g Hg. specialize (H1 g Hg). apply orb_true_iff in H1 as [H1|H1]; rewrite forallb_forall in H1; [exists 0%Z|exists 1%Z]; (split; [auto|]); intros i Hi; apply opt_z_eqb_ok; auto.
    + intros i Hi. apply opt_z_eqb_ok; auto.
    + intros n s Hs. specialize (H3 (n, s)). cbn [fst snd] in H3. apply Z.eqb_eq, H3. apply in_combine_nth. split; [lia|]. rewrite Nat.sub_0_r. auto.
  - intros [F1 F2 F3 F4 F5]. split; [split|].
    + intros g Hg. destruct (F3 g Hg) as (sw & [-> | ->] & Hi); apply orb_true_iff; [left|right]; apply forallb_forall; intros i Hin; apply opt_z_eqb_ok; auto.
    + intros i Hi. apply opt_z_eqb_ok; auto.
    + intros [n s] Hin. cbn [fst snd]. apply in_combine_nth in Hin as [_ Hn]. rewrite Nat.sub_0_r in Hn. apply Z.eqb_eq; auto.
Qed.
Lemma cheapest_of_ok f l : match cheapest_of f l with Some x => In x l /\ forall y, In y l -> (objective f x <= objective f y)%Z | None => l = [] end.
Proof.
  induction l as [|x l IH]; cbn [cheapest_of]; auto. destruct (cheapest_of f l) as [y|].
  - destruct IH as [H1 H2]. destruct (Z.leb_spec (objective f x) (objective f y)).
    + split; [left; auto|]. intros z [<-|Hz]; [lia|]. specialize (H2 z Hz). lia.
    + split; [right; auto|]. intros z [<-|Hz]; [lia|]. auto.
  - subst l. split; [left; auto|]. intros z [<-|[]]. lia.
Qed.
Lemma map_nth_seq (x : list Z) n : length x = n -> map (fun i => nth i x 0%Z) (seq 0 n) = x.
Proof.
  intros <-. apply nth_ext with (d := 0%Z) (d' := 0%Z); [rewrite map_length, seq_length; auto|]. intros i Hi. rewrite map_length, seq_length in Hi.
  rewrite nth_indep with (d' := (fun i => nth i x 0%Z) 0) by (rewrite map_length, seq_length; auto).
  rewrite (map_nth (fun i => nth i x 0%Z)). rewrite seq_nth by auto. reflexivity.
Qed.
Lemma brute_exact late : exact_lp (brute_env late).
Proof.
  intros t f. cbn [brute_env ev_lp]. unfold brute_lp. pose proof (cheapest_of_ok f (filter (feasible_b f) (vectors (fl_edges f)))) as H.
  assert (K : forall y, feasible_point f y -> In y (filter (feasible_b f) (vectors (fl_edges f)))).
  { intros y Hy. assert (Hin : In y (vectors (fl_edges f))) by (apply vectors_in; split; [apply (fp_length _ _ Hy)|apply (fp_bounds _ _ Hy)]).
    apply filter_In. split; auto. apply feasible_b_ok; auto. }
  destruct (cheapest_of f _) as [x|].
  - destruct H as [H1 H2]. apply filter_In in H1 as [H1 H3]. apply (feasible_b_ok f x H1) in H3. rewrite map_nth_seq by apply (fp_length _ _ H3). split; auto.
  - intros y Hy. apply K in Hy. rewrite H in Hy. destruct Hy.
Qed.
Lemma exact_honest ev dl : exact_lp ev -> honest_lp ev dl.
Proof. intros H t f. specialize (H t f). destruct (ev_lp ev t f); [apply H|auto]. Qed.
Lemma exact_optimal ev : exact_lp ev -> optimal_lp ev.
Proof. intros H t f g E. specialize (H t f). rewrite E in H. apply H. Qed.
