(** Lemmas for C96. *)
From Verif Require Import Base M_Data.
From Verif Require Import M_Names M_Rng M_Script Spec_Script P_Script1 M_Args Spec_Args P_Args M_Inline Spec_Inline P_Inline Spec_Times P_Times.
From Coq Require Import String Ascii.
Notation length := Datatypes.length.
Notation get := Base.get.
Open Scope string_scope.
Open Scope list_scope.

(** ** The command line *)
Lemma valued_panic {A} m f (p : string -> outcome A) x0 : valued m f p (Ok x0) = Panic -> exists v, In (key_of f, v) (map item m) /\ p v = Panic.
Proof.
  unfold valued. destruct (found m f) as [|v r] eqn:E; [discriminate|]. intros H. exists v. split; auto. eapply found_cons; eauto.
Qed.
Lemma value_parser_panic {A} (p : string -> option A) v : value_parser p v <> Panic.
Proof. unfold value_parser. destruct (p v); discriminate. Qed.
Lemma parse_panics {F} pr (pf : string -> option F) three cores words : options_parse_inline pr pf three cores words = Panic ->
  exists l k v, said words l /\ In (k, v) l /\ (k = KTimeout \/ k = KCsTimeout) /\ parse_time pr v = Panic.
Proof.
  unfold options_parse_inline. destruct (clap_items words) as [m|] eqn:E; [|discriminate].
  assert (S1 := items_ok (length words) words m (le_n _) E). destruct (once_b m); [|discriminate]. cbn [negb].
  assert (T60 : parse_time pr "60s" = Ok 60%Z) by (destruct pr; vm_compute; reflexivity).
  assert (T3 : parse_time pr "3s" = Ok 3%Z) by (destruct pr; vm_compute; reflexivity).
  rewrite T60, T3.
  destruct (valued m FExp (value_parser pf) (Ok three)) eqn:V1; cbn [bind]; [|discriminate|].
  2:{ apply valued_panic in V1 as (v & _ & V1). exfalso. exact (value_parser_panic _ _ V1). }
  destruct (valued m FTimeout (parse_time pr) (Ok 60%Z)) eqn:V2; cbn [bind]; [|discriminate|].
  2:{ apply valued_panic in V2 as (v & Hv & V2). intros _. exists (map item m), KTimeout, v. auto. }
  destruct (valued m FCsTimeout (parse_time pr) (Ok 3%Z)) eqn:V3; cbn [bind]; [|discriminate|].
  2:{ apply valued_panic in V3 as (v & Hv & V3). intros _. exists (map item m), KCsTimeout, v. auto. }
  destruct (valued m FThreads (value_parser parse_u32) (Ok cores)) eqn:V4; cbn [bind]; [|discriminate|].
  2:{ apply valued_panic in V4 as (v & _ & V4). exfalso. exact (value_parser_panic _ _ V4). }
  destruct (valued m FNeighbors (value_parser parse_u32) (Ok 12%N)) eqn:V5; cbn [bind]; [discriminate|discriminate|].
  apply valued_panic in V5 as (v & _ & V5). exfalso. exact (value_parser_panic _ _ V5).
Qed.

(** ** Options after options *)
Lemma setting_app {A} (rd : string -> A -> Prop) l l' k x0 x x' : setting rd l k x0 x -> setting rd l' k x x' -> setting rd (l ++ l') k x0 x'.
Proof.
  intros H [(v & (l1 & l2 & -> & H2) & Hr)|[H2 ->]].
  - left. exists v. split; auto. exists (l ++ l1), l2. rewrite app_assoc. auto.
  - destruct H as [(v & (l1 & l2 & -> & H1) & Hr)|[H1 ->]].
    + left. exists v. split; auto. exists l1, (l2 ++ l'). rewrite <- app_assoc. split; auto.
      intros v' Hi. apply in_app_iff in Hi as [Hi|Hi]; [exact (H1 v' Hi)|exact (H2 v' Hi)].
    + right. split; auto. intros v Hi. apply in_app_iff in Hi as [Hi|Hi]; [exact (H1 v Hi)|exact (H2 v Hi)].
Qed.
Lemma switch_app l l' k b0 b b' : switch l k b0 b -> switch l' k b b' -> switch (l ++ l') k b0 b'.
Proof.
  unfold switch. intros H H'. rewrite H', H. setoid_rewrite in_app_iff. split.
  - intros [[G|(v & G)]|(v & G)]; eauto.
  - intros [G|(v & [G|G])]; eauto.
Qed.
Lemma inputs_told_app l r : inputs_told l r -> forall l' r', inputs_told l' r' -> inputs_told (l ++ l') (r ++ r').
Proof. induction 1; intros l' r' H'; cbn [app]; auto; constructor; auto. Qed.
Lemma in_effect_app {F} (fl : string -> F -> Prop) tm num l l' o0 o o' :
  in_effect fl tm num l o0 o -> in_effect fl tm num l' o o' -> in_effect fl tm num (l ++ l') o0 o'.
Proof.
  intros [(r & Hr & E1) A2 A3 A4 A5 A6 A7 A8 A9 A10 A11] [(r' & Hr' & E1') B2 B3 B4 B5 B6 B7 B8 B9 B10 B11].
  constructor; try (eapply setting_app; eauto; fail); try (eapply switch_app; eauto; fail).
  exists (r ++ r'). split; [apply inputs_told_app; auto|]. rewrite E1', E1, app_assoc. reflexivity.
Qed.
Lemma setting_nonneg pr l k x0 x : (0 <= x0)%Z -> (forall v, In (k, v) l -> ~ too_long v) -> setting (fun v x => parse_time pr v = Ok x) l k x0 x -> (0 <= x)%Z.
Proof.
  intros H0 HS [(v & (l1 & l2 & -> & _) & Hr)|[_ ->]]; auto.
  refine (proj2 (time_in_range pr v _) _ Hr). apply HS, in_app_iff. right. left. reflexivity.
Qed.

