(** Name lookup follows the four documented levels. *)
From Verif Require Import Base M_Data M_Names P_Resolve M_Build M_Script Spec_Script P_Script1.
From Coq Require Import String Ascii Sorted.
Notation length := Datatypes.length.
Notation get := Base.get.

Lemma no_space_cons c t : no_space (String c t) <-> c <> " "%char /\ no_space t.
Proof. unfold no_space. cbn. intuition. Qed.
Lemma no_space_app a b : no_space (a ++ b) <-> no_space a /\ no_space b.
Proof.
  induction a as [|c t IH]; cbn [String.append].
  - split; [intros H; split; [intros []|auto]|tauto].
  - rewrite !no_space_cons, IH. tauto.
Qed.
Lemma no_space_not a p : ~ no_space (a ++ String " " p).
Proof. rewrite no_space_app, no_space_cons. tauto. Qed.

Lemma split_inv v : exists tok, no_space tok /\
  ((v = tok /\ split_sp v = [tok]) \/
   exists u, v = (tok ++ String " " u)%string /\ split_sp v = tok :: split_sp u).
Proof.
  induction v as [|c t IH].
  - exists ""%string. split; [intros []|]. left; auto.
  - cbn [split_sp]. destruct (Ascii.eqb_spec c " ") as [-> |Hne].
    + exists ""%string. split; [intros []|]. right. exists t. auto.
    + destruct IH as (tok & Hn & [[-> ->]|(u & -> & ->)]).
      * exists (String c tok). split; [apply no_space_cons; auto|]. left; auto.
      * exists (String c tok). split; [apply no_space_cons; auto|]. right. exists u. auto.
Qed.

Lemma cut tok : forall a p q, no_space tok -> (a ++ String " " p)%string = (tok ++ String " " q)%string ->
  (a = tok /\ p = q) \/ exists a', a = (tok ++ String " " a')%string /\ q = (a' ++ String " " p)%string.
Proof.
  induction tok as [|c t IH]; intros a p q Hn H; cbn [String.append] in H.
  - destruct a as [|x a]; cbn [String.append] in H.
    + injection H as ->. left; auto.
    + injection H as -> H. right. exists a. auto.
  - apply no_space_cons in Hn as [Hc Hn]. destruct a as [|x a]; cbn [String.append] in H.
    + injection H as <- _. congruence.
    + injection H as -> H. apply IH in H as [[-> ->]|(a' & -> & ->)]; auto. right. exists a'. auto.
Qed.

Lemma split_words n : forall v key, String.length v <= n -> (In key (split_sp v) <-> a_word key v).
Proof.
  induction n as [|n IH]; intros v key Hl.
  - destruct v; [|cbn in Hl; lia]. cbn. split.
    + intros [<- |[]]. split; [intros []|]. exists ""%string, ""%string. auto.
    + intros (_ & a & b & H & _). left. destruct a; [|discriminate]. destruct key; [auto|discriminate].
  - destruct (split_inv v) as (tok & Hn & [[-> Hs]|(u & Hv & Hs)]); rewrite Hs.
    + split.
      * intros [<- |[]]. split; auto. exists ""%string, ""%string. cbn [String.append]. rewrite app_nil_s. auto.
      * intros (Hk & a & b & H & Ha & Hb). left.
        destruct Ha as [-> |(a' & ->)]; [|exfalso; rewrite H, app_assoc_s in Hn; exact (no_space_not _ _ Hn)].
        destruct Hb as [-> |(b' & ->)].
        -- cbn [String.append] in H. rewrite app_nil_s in H. auto.
        -- exfalso. cbn [String.append] in H. rewrite H in Hn. exact (no_space_not _ _ Hn).
    + assert (Hu : String.length u <= n).
      { rewrite Hv in Hl. clear -Hl. induction tok; cbn in *; lia. }
      cbn [In]. rewrite (IH u key Hu). split.
      * intros [<- |(Hk & a & b & -> & Ha & Hb)].
        -- split; auto. exists ""%string, (String " " u). split; [auto|]. split; [auto|]. right. exists u. auto.
        -- split; auto. exists (tok ++ String " " a)%string, b. split; [rewrite app_assoc_s; auto|]. split; [|auto].
           right. destruct Ha as [-> |(a' & ->)]; [exists tok; auto|exists (tok ++ String " " a')%string].
           rewrite app_assoc_s. auto.
      * intros (Hk & a & b & H & Ha & Hb). rewrite Hv in H. destruct Ha as [-> |(a' & ->)].
        -- left. cbn [String.append] in H. destruct Hb as [-> |(b' & ->)].
           ++ rewrite app_nil_s in H. exfalso. rewrite <- H in Hk. exact (no_space_not _ _ Hk).
           ++ cbn [String.append] in H. symmetry in H. apply cut in H as [[-> _]|(x & -> & _)]; auto.
              exfalso. exact (no_space_not _ _ Hk).
        -- right. split; auto. rewrite app_assoc_s in H. cbn [String.append] in H. symmetry in H.
           apply cut in H as [[-> <-]|(x & -> & ->)]; auto.
           ++ exists ""%string, b. auto.
           ++ exists (x ++ " ")%string, b. split; [rewrite app_assoc_s; auto|]. split; [right; exists x; auto|auto].
Qed.
Lemma split_first v key : firstn 1 (split_sp v) = [key] <-> first_word key v.
Proof.
  destruct (split_inv v) as (tok & Hn & [[-> Hs]|(u & Hv & Hs)]); rewrite Hs; cbn [firstn].
  - split; intros H; [injection H as <-; split; auto|].
    destruct H as (Hk & [-> |(rest & ->)]); auto. exfalso. exact (no_space_not _ _ Hn).
  - split; intros H.
    + injection H as <-. split; auto. right. exists u. auto.
    + destruct H as (Hk & [H|(rest & H)]).
      * exfalso. rewrite <- H, Hv in Hk. exact (no_space_not _ _ Hk).
      * rewrite Hv in H. cbn [String.append] in H. apply cut in H as [[-> _]|(x & -> & _)]; auto.
        exfalso. exact (no_space_not _ _ Hn).
Qed.

Lemma prefix_spec key : forall s, String.prefix key s = true <-> exists b, s = (key ++ b)%string.
Proof.
  induction key as [|c t IH]; intros s.
  - cbn. split; [intros _; exists s; auto|destruct s; auto].
  - destruct s as [|d u]; [split; [discriminate|intros (b & H); discriminate]|].
    change (String.prefix (String c t) (String d u)) with (if ascii_dec c d then String.prefix t u else false).
    destruct (ascii_dec c d) as [->|Hne].
    + split; [intros H; apply IH in H as (b & ->); exists b; auto|].
      intros (b & H). apply IH. exists b. injection H; auto.
    + split; [discriminate|intros (b & H); injection H as <- _; congruence].
Qed.
Lemma contains_spec key s : str_contains key s = true <-> occurs key s.
Proof.
  induction s as [|c t IH]; cbn [str_contains]; rewrite orb_true_iff.
  - rewrite prefix_spec. split.
    + intros [(b & H)|H]; [|discriminate]. exists ""%string, b. auto.
    + intros (a & b & H). left. destruct a; [exists b; auto|discriminate].
  - rewrite prefix_spec, IH. split.
    + intros [(b & H)|(a & b & ->)]; [exists ""%string, b; auto|exists (String c a), b; auto].
    + intros (a & b & H). destruct a as [|x a]; [left; exists b; auto|].
      cbn in H. injection H as -> ->. right. exists a, b. auto.
Qed.

Lemma idx_filter_sorted {A} (f : A -> bool) l : forall off, StronglySorted lt (idx_filter f off l) /\
  Forall (fun i => off <= i) (idx_filter f off l).
Proof.
  induction l as [|x t IH]; intros off; cbn [idx_filter]; [split; constructor|].
  destruct (IH (S off)) as [H1 H2].
  assert (H3 : Forall (fun i => off <= i) (idx_filter f (S off) t)).
  { eapply Forall_impl; [|exact H2]. cbn; lia. }
  destruct (f x); [|auto]. split; [|constructor; auto].
  constructor; auto.
Qed.
Lemma idx_filter_positions (f : string -> bool) (P : string -> Prop) names :
  (forall v, f v = true <-> P v) -> positions P names (idx_filter f 0 names).
Proof.
  intros Hf. split; [apply idx_filter_sorted|].
  intros i. rewrite idx_filter_in, Nat.sub_0_r. split.
  - intros (_ & v & Hv & H). exists v. rewrite <- Hf. auto.
  - intros (v & Hv & H). split; [lia|]. exists v. rewrite Hf. auto.
Qed.

Lemma existsb_in key l : existsb (fun tok => String.eqb tok key) l = true <-> In key l.
Proof.
  rewrite existsb_exists. split; [intros (x & Hx & He)|intros H; exists key; split; auto; apply String.eqb_refl].
  apply String.eqb_eq in He. congruence.
Qed.
Lemma find_exact_pos key names : positions (fun v => v = key) names (find_exact key names).
Proof. apply idx_filter_positions. intros v. apply String.eqb_eq. Qed.
Lemma find_first_pos key names : positions (first_word key) names (find_by_token key names true).
Proof.
  apply idx_filter_positions. intros v. cbv iota. rewrite existsb_in, <- split_first.
  destruct (split_inv v) as (tok & _ & [[_ ->]|(u & _ & ->)]); cbn [firstn In]; (split; [intros [-> |[]]; auto|intros H; injection H; auto]).
Qed.
Lemma find_token_pos key names : positions (a_word key) names (find_by_token key names false).
Proof. apply idx_filter_positions. intros v. cbv iota. rewrite existsb_in. apply (split_words (String.length v)). lia. Qed.
Lemma find_sub_pos key names : positions (occurs key) names (find_by_substring key names).
Proof. apply idx_filter_positions. intros v. apply contains_spec. Qed.

Lemma fuzzy_best key names : best_match names (levels key) (fuzzy_find key names).
Proof.
  unfold fuzzy_find, levels.
  assert (H1 := find_exact_pos key names). destruct (find_exact key names) as [|a l1] eqn:E1.
  2: { apply bm_here; [exact H1|discriminate]. }
  apply bm_next; [exact H1|].
  assert (H2 := find_first_pos key names). destruct (find_by_token key names true) as [|a l1] eqn:E2.
  2: { apply bm_here; [exact H2|discriminate]. }
  apply bm_next; [exact H2|].
  assert (H3 := find_token_pos key names). destruct (find_by_token key names false) as [|a l1] eqn:E3.
  2: { apply bm_here; [exact H3|discriminate]. }
  apply bm_next; [exact H3|].
  assert (H4 := find_sub_pos key names). destruct (find_by_substring key names) as [|a l1] eqn:E4.
  2: { apply bm_here; [exact H4|discriminate]. }
  apply bm_next; [exact H4|apply bm_none].
Qed.

Lemma sorted_unique l1 : forall l2, StronglySorted lt l1 -> StronglySorted lt l2 ->
  (forall i : nat, In i l1 <-> In i l2) -> l1 = l2.
Proof.
  induction l1 as [|a t IH]; intros [|b u] S1 S2 H; auto.
  - exfalso. apply (H b). left; auto.
  - exfalso. apply (H a). left; auto.
  - inversion S1 as [|x y T1 F1]; subst. inversion S2 as [|x y T2 F2]; subst.
    rewrite Forall_forall in F1, F2.
    assert (a = b).
    { destruct (proj1 (H a) (or_introl eq_refl)) as [|Ha]; auto.
      destruct (proj2 (H b) (or_introl eq_refl)) as [|Hb]; auto.
      apply F2 in Ha. apply F1 in Hb. lia. }
    subst b. f_equal. apply IH; auto. intros i. split; intros Hi.
    + destruct (proj1 (H i) (or_intror Hi)) as [<- |]; auto. apply F1 in Hi. lia.
    + destruct (proj2 (H i) (or_intror Hi)) as [<- |]; auto. apply F2 in Hi. lia.
Qed.
Lemma positions_unique P names l1 l2 : positions P names l1 -> positions P names l2 -> l1 = l2.
Proof. intros [S1 H1] [S2 H2]. apply sorted_unique; auto. intros i. rewrite H1, H2. tauto. Qed.
Lemma best_unique names Ps : forall l1 l2, best_match names Ps l1 -> best_match names Ps l2 -> l1 = l2.
Proof.
  induction Ps as [|P Ps IH]; intros l1 l2 H1 H2; inversion H1; inversion H2; subst; auto.
  - eapply positions_unique; eauto.
  - exfalso. assert (l1 = []) by (eapply positions_unique; eauto). congruence.
  - exfalso. assert (l2 = []) by (eapply positions_unique; eauto). congruence.
Qed.

(** Every better level is a special case of the last. *)
Lemma level_occurs key P v : In P (levels key) -> P v -> occurs key v.
Proof.
  cbn. intros [<- |[<- |[<- |[<- |[]]]]] H; auto.
  - subst. exists ""%string, ""%string. cbn. rewrite app_nil_s. auto.
  - destruct H as (_ & [-> |(rest & ->)]); [exists ""%string, ""%string; cbn; rewrite app_nil_s; auto|].
    exists ""%string, (" " ++ rest)%string. auto.
  - destruct H as (_ & a & b & -> & _). exists a, b. auto.
Qed.
Lemma positions_nil P names : positions P names [] <-> forall v, In v names -> ~ P v.
Proof.
  split.
  - intros [_ H] v Hv HP. apply In_nth_error in Hv as (i & Hi). destruct (proj2 (H i)). exists v; auto.
  - intros H. split; [constructor|]. intros i. split; [intros []|]. intros (v & Hv & HP).
    exact (H v (nth_error_In _ _ Hv) HP).
Qed.
Lemma fuzzy_none key names : fuzzy_find key names = [] <-> forall v, In v names -> ~ occurs key v.
Proof.
  split.
  - intros H. assert (B := fuzzy_best key names). rewrite H in B. unfold levels in B.
    repeat match goal with
    | B : best_match _ (_ :: _) _ |- _ => inversion B; subst; clear B; [congruence|]
    end. apply positions_nil; auto.
  - intros H. apply (best_unique names (levels key)); [apply fuzzy_best|].
    assert (G : forall P, In P (levels key) -> positions P names []).
    { intros P HP. apply positions_nil. intros v Hv Hp. apply (H v Hv). eapply level_occurs; eauto. }
    unfold levels in *. repeat (apply bm_next; [apply G; cbn; auto|]). apply bm_none.
Qed.
