(** Option words: the readings of C91. *)
From Verif Require Import Base.
From Verif Require Import M_Script Spec_Script P_Script1 M_Args Spec_Args.
From Coq Require Import String Ascii.
Notation length := Datatypes.length.
Notation get := Base.get.
Open Scope string_scope.
Open Scope list_scope.

Lemma key_eq (a b : key) : {a = b} + {a <> b}.
Proof. decide equality. Qed.

Lemma names_apart w k k' : In w (names k) -> In w (names k') -> k = k'.
Proof.
  destruct k, k'; cbn; intros H H'; try reflexivity; exfalso;
    repeat match goal with H : _ \/ _ |- _ => destruct H as [H|H] | H : False |- _ => destruct H end; subst; discriminate.
Qed.
Lemma tells_fun ws l : tells ws l -> forall l', tells ws l' -> l = l'.
Proof.
  induction 1 as [|k w v ws l Hw Hk H IH|k w ws l Hw Hk H IH]; intros l' H'; inversion H' as [|k' w' v' ws' l1 Hw' Hk' H1|k' w' ws' l1 Hw' Hk' H1]; subst.
  - reflexivity.
  - rewrite (names_apart _ _ _ Hw Hw'), (IH _ H1). reflexivity.
  - rewrite (names_apart _ _ _ Hw Hw') in Hk. contradiction.
  - rewrite (names_apart _ _ _ Hw Hw') in Hk. contradiction.
  - rewrite (names_apart _ _ _ Hw Hw'), (IH _ H1). reflexivity.
Qed.
Lemma tells_app ws l : tells ws l -> forall ws' l', tells ws' l' -> tells (ws ++ ws') (l ++ l').
Proof. induction 1; intros ws' l' H'; cbn [app]; auto; econstructor; eauto. Qed.

(** ** [setting] and [switch] *)
Lemma setting_nil {A} (rd : string -> A -> Prop) k x : setting rd [] k x x.
Proof. right. split; [intros v []|reflexivity]. Qed.
Lemma last_told_cons l k v x : last_told l k v -> last_told (x :: l) k v.
Proof. intros (l1 & l2 & -> & H). exists (x :: l1), l2. auto. Qed.
Lemma setting_same {A} (rd : string -> A -> Prop) l k v x0 x1 x : rd v x1 -> setting rd l k x1 x -> setting rd ((k, v) :: l) k x0 x.
Proof.
  intros Hv [(v' & H1 & H2)|[Hu ->]].
  - left. exists v'. split; auto using last_told_cons.
  - left. exists v. split; auto. exists [], l. auto.
Qed.
Lemma setting_other {A} (rd : string -> A -> Prop) l k k' v x0 x : k' <> k -> setting rd l k x0 x -> setting rd ((k', v) :: l) k x0 x.
Proof.
  intros Hk [(v' & H1 & H2)|[Hu ->]].
  - left. exists v'. split; auto using last_told_cons.
  - right. split; auto. intros v' [E|H']; [congruence|]. apply (Hu v' H').
Qed.
Lemma switch_nil k b : switch [] k b b.
Proof. split; [auto|]. intros [H|[v []]]; auto. Qed.
Lemma switch_same l k v b0 b : switch l k true b -> switch ((k, v) :: l) k b0 b.
Proof. intros [H1 H2]. split; [|auto]. intros _. right. exists v. left. reflexivity. Qed.
Lemma switch_other l k k' v b0 b : k' <> k -> switch l k b0 b -> switch ((k', v) :: l) k b0 b.
Proof.
  intros Hk [H1 H2]. split.
  - intros Hb. destruct (H1 Hb) as [?|[v' ?]]; auto. right. exists v'. right. auto.
  - intros [?|[v' [E|?]]]; [auto|congruence|]. apply H2. right. exists v'. auto.
Qed.
Lemma last_told_fun l k v v' : last_told l k v -> last_told l k v' -> v = v'.
Proof.
  intros (a & b & -> & H) (a' & b' & E & H'). revert a' E. induction a as [|x a IH]; intros [|x' a'] E; cbn [app] in E.
  - congruence.
  - injection E as <- ->. exfalso. apply (H v'). apply in_or_app. right. left. reflexivity.
  - injection E as -> <-. exfalso. apply (H' v). apply in_or_app. right. left. reflexivity.
  - injection E as <- E. eauto.
Qed.
Lemma last_told_in l k v : last_told l k v -> In (k, v) l.
Proof. intros (a & b & -> & _). apply in_or_app. right. left. reflexivity. Qed.
Lemma setting_fun {A} (rd : string -> A -> Prop) l k x0 x y : (forall v a b, rd v a -> rd v b -> a = b) ->
  setting rd l k x0 x -> setting rd l k x0 y -> x = y.
Proof.
  intros HF [(v & H1 & H2)|[Hu ->]] [(v' & H1' & H2')|[Hu' ->]]; auto.
  - rewrite (last_told_fun _ _ _ _ H1 H1') in H2. eauto.
  - destruct (Hu' v). apply last_told_in. exact H1.
  - destruct (Hu v'). apply last_told_in. exact H1'.
Qed.
Lemma switch_fun l k b0 b b' : switch l k b0 b -> switch l k b0 b' -> b = b'.
Proof. intros [H1 H2] [H3 H4]. destruct b, b'; try reflexivity; [symmetry; apply H4, H1, eq_refl|apply H2, H3, eq_refl]. Qed.
Lemma inputs_told_fun l r : inputs_told l r -> forall r', inputs_told l r' -> r = r'.
Proof. induction 1; intros r' H'; inversion H'; subst; try congruence; auto. f_equal. auto. Qed.

Section Reading.
Context {F : Type} (fl : string -> F -> Prop) (tm : string -> Z -> Prop) (num : string -> N -> Prop).
Hypothesis fl_fun : forall v a b, fl v a -> fl v b -> a = b.
Hypothesis tm_fun : forall v a b, tm v a -> tm v b -> a = b.
Hypothesis num_fun : forall v a b, num v a -> num v b -> a = b.

Lemma in_effect_fun l (o o1 o2 : settings F) : in_effect fl tm num l o o1 -> in_effect fl tm num l o o2 -> o1 = o2.
Proof using fl_fun tm_fun num_fun.
  intros [(r & Hr & E1) A2 A3 A4 A5 A6 A7 A8 A9 A10 A11] [(r' & Hr' & E1') B2 B3 B4 B5 B6 B7 B8 B9 B10 B11].
  destruct o1 as [i1 o1 a1 e1 t1 c1 n1 s1 j1 m1 g1], o2 as [i2 o2 a2 e2 t2 c2 n2 s2 j2 m2 g2]. cbn in *.
  rewrite (inputs_told_fun _ _ Hr _ Hr') in E1.
  f_equal; try (eapply switch_fun; eauto; fail); try congruence; (eapply setting_fun; [|eassumption|eassumption]); auto.
  cbn. intros v a b; congruence.
Qed.

Lemma in_effect_nil (o : settings F) : in_effect fl tm num [] o o.
Proof using Type.
  split; try apply setting_nil; try apply switch_nil. exists []. split; [constructor|]. symmetry. apply app_nil_r.
Qed.

Lemma applies_reads o ss (o' : settings F) : applies fl tm num o ss o' ->
  exists l, tells ss l /\ readable fl tm num l /\ in_effect fl tm num l o o'.
Proof using Type.
  induction 1 as [o|o a v t o' i out any e to cs nc ns th mx gr Ha -> H IH|o a v t o' i out any e to cs nc ns th mx gr Ha -> H IH
    |o a t o' i out any e to cs nc ns th mx gr Ha -> H IH|o a v t o' x i out any e to cs nc ns th mx gr Ha Hx -> H IH
    |o a v t o' x i out any e to cs nc ns th mx gr Ha Hx -> H IH|o a v t o' x i out any e to cs nc ns th mx gr Ha Hx -> H IH
    |o a t o' i out any e to cs nc ns th mx gr Ha -> H IH|o a t o' i out any e to cs nc ns th mx gr Ha -> H IH
    |o a v t o' x i out any e to cs nc ns th mx gr Ha Hx -> H IH|o a v t o' x i out any e to cs nc ns th mx gr Ha Hx -> H IH
    |o a t o' i out any e to cs nc ns th mx gr Ha -> H IH|o a t o' Ha H IH].
  { exists []. split; [constructor|]. split; [intros k v []|apply in_effect_nil]. }
  all: destruct IH as (l & Hl & Hr & [A1 A2 A3 A4 A5 A6 A7 A8 A9 A10 A11]); cbn [s_inputs s_output s_any s_pref_exp s_timeout s_cs_timeout s_no_cs s_no_cs_simp s_threads s_max_neighbors s_greedy] in *.
  Ltac done k v l := exists ((k, v) :: l); split; [econstructor; cbn; eauto|split;
    [intros k' v' [E|E]; [injection E as <- <-; cbn; eauto|match goal with H : readable _ _ _ ?l, G : In _ ?l |- _ => exact (H _ _ G) end]
    |split; cbn [s_inputs s_output s_any s_pref_exp s_timeout s_cs_timeout s_no_cs s_no_cs_simp s_threads s_max_neighbors s_greedy];
      try (apply setting_other; [discriminate|assumption]); try (apply switch_other; [discriminate|assumption]);
      try (eapply setting_same; [|eassumption]; auto; fail); try (eapply switch_same; eassumption);
      try (match goal with H : exists _, _ |- _ => destruct H as (r & B1 & B2); eexists; split; [econstructor; try discriminate; eassumption|];
           rewrite B2; repeat rewrite <- app_assoc; reflexivity end)]].
  - done KInput v l.
  - done KOutput v l.
  - done KAny "" l.
  - done KExp v l.
  - done KTimeout v l.
  - done KCsTimeout v l.
  - done KNoCs "" l.
  - done KNoCsSimp "" l.
  - done KThreads v l.
  - done KNeighbors v l.
  - done KGreedy "" l.
  - done KHelp "" l.
Qed.

Lemma reads_applies ss l : tells ss l -> readable fl tm num l -> forall o : settings F, exists o', applies fl tm num o ss o'.
Proof using Type.
  induction 1 as [|k w v ws l Hw Hk H IH|k w ws l Hw Hk H IH]; intros HR o.
  - exists o. constructor.
  - assert (HR' : readable fl tm num l) by (intros k' v' Hi; apply HR; right; exact Hi). specialize (IH HR').
    assert (Hv := HR k v (or_introl eq_refl)). destruct o as [i out any e to cs nc ns th mx gr].
    destruct k; cbn in Hk, Hv; try contradiction.
    + destruct (IH (mkSettings (i ++ [v]) out any e to cs nc ns th mx gr)) as [o' Ho]. exists o'. eapply ap_input; eauto.
    + destruct (IH (mkSettings i (Some v) any e to cs nc ns th mx gr)) as [o' Ho]. exists o'. eapply ap_output; eauto.
    + destruct Hv as [x Hx]. destruct (IH (mkSettings i out any x to cs nc ns th mx gr)) as [o' Ho]. exists o'. eapply ap_exp; eauto.
    + destruct Hv as [x Hx]. destruct (IH (mkSettings i out any e x cs nc ns th mx gr)) as [o' Ho]. exists o'. eapply ap_timeout; eauto.
    + destruct Hv as [x Hx]. destruct (IH (mkSettings i out any e to x nc ns th mx gr)) as [o' Ho]. exists o'. eapply ap_cs_timeout; eauto.
    + destruct Hv as [x Hx]. destruct (IH (mkSettings i out any e to cs nc ns x mx gr)) as [o' Ho]. exists o'. eapply ap_threads; eauto.
    + destruct Hv as [x Hx]. destruct (IH (mkSettings i out any e to cs nc ns th x gr)) as [o' Ho]. exists o'. eapply ap_neighbors; eauto.
  - assert (HR' : readable fl tm num l) by (intros k' v' Hi; apply HR; right; exact Hi). specialize (IH HR').
    destruct o as [i out any e to cs nc ns th mx gr].
    destruct k; cbn in Hk; try (exfalso; apply Hk; exact I).
    + destruct (IH (mkSettings i out true e to cs nc ns th mx gr)) as [o' Ho]. exists o'. eapply ap_any; eauto.
    + destruct (IH (mkSettings i out any e to cs true ns th mx gr)) as [o' Ho]. exists o'. eapply ap_no_cs; eauto.
    + destruct (IH (mkSettings i out any e to cs nc true th mx gr)) as [o' Ho]. exists o'. eapply ap_no_cs_simp; eauto.
    + destruct (IH (mkSettings i out any e to cs nc ns th mx true)) as [o' Ho]. exists o'. eapply ap_greedy; eauto.
    + destruct (IH (mkSettings i out any e to cs nc ns th mx gr)) as [o' Ho]. exists o'. eapply ap_ignored; eauto.
Qed.

Lemma applies_iff o ss (o' : settings F) : applies fl tm num o ss o' <->
  exists l, tells ss l /\ readable fl tm num l /\ in_effect fl tm num l o o'.
Proof using fl_fun tm_fun num_fun.
  split; [apply applies_reads|]. intros (l & H1 & H2 & H3). destruct (reads_applies _ _ H1 H2 o) as [o2 Ho].
  destruct (applies_reads _ _ _ Ho) as (l' & H1' & _ & H3'). rewrite <- (tells_fun _ _ H1 _ H1') in H3'.
  rewrite (in_effect_fun _ _ _ _ H3 H3'). exact Ho.
Qed.
End Reading.

(** ** The command line *)
Definition key_of (f : field) : key :=
  match f with FInput => KInput | FOutput => KOutput | FAny => KAny | FExp => KExp | FTimeout => KTimeout | FCsTimeout => KCsTimeout
  | FNoCs => KNoCs | FNoCsSimp => KNoCsSimp | FThreads => KThreads | FNeighbors => KNeighbors | FGreedy => KGreedy end.
Definition item (x : field * string) : key * string := (key_of (fst x), snd x).
Lemma key_of_inj a b : key_of a = key_of b -> a = b.
Proof. destruct a, b; cbn; congruence. Qed.

Lemma dashed_ok v : dashed v = true <-> option_like v.
Proof.
  unfold dashed, option_like. split.
  - destruct v as [|c [|c' s]]; try discriminate; intros H.
    + destruct c as [[] [] [] [] [] [] [] []]; discriminate.
    + exists c', s. destruct c as [[] [] [] [] [] [] [] []]; try discriminate. reflexivity.
  - intros (c & s & ->). reflexivity.
Qed.

Lemma declared_ok a w : find (fun a => named a w) declared = Some a -> In w (names (key_of (arg_field a))) /\
  (with_value (key_of (arg_field a)) <-> arg_takes a <> Switch) /\ (key_of (arg_field a) = KInput <-> arg_takes a = Many).
Proof.
  intros H. apply find_some in H as [Hi Hn]. unfold named in Hn. apply orb_prop in Hn.
  cbn in Hi. repeat destruct Hi as [<-|Hi]; try destruct Hi; cbn in Hn |- *;
    (split; [|split; split; try tauto; discriminate]); destruct Hn as [Hn|Hn]; try discriminate; apply String.eqb_eq in Hn; subst; auto.
Qed.
Lemma declared_all k w : In w (names k) -> k <> KHelp -> exists a, find (fun a => named a w) declared = Some a /\ key_of (arg_field a) = k.
Proof.
  intros H Hk. destruct k; try congruence; cbn in H; repeat destruct H as [<-|H]; try destruct H; eexists; split; reflexivity.
Qed.

Lemma orderly_tail x l : orderly (x :: l) -> orderly l.
Proof.
  intros [H1 H2]. split.
  - intros l1 k v l2 -> Hk. apply (H1 (x :: l1) k v l2); auto.
  - intros k v Hi. apply H2 with (v := v). right. exact Hi.
Qed.

Lemma untold_cons k k' v l : untold l k -> k' <> k -> untold ((k', v) :: l) k.
Proof. intros H Hk v' [E|Hi]; [congruence|]. apply (H v' Hi). Qed.
Lemma orderly_cons k v l : k <> KHelp -> ~ option_like v -> (k = KInput \/ untold l k) -> orderly l -> orderly ((k, v) :: l).
Proof.
  intros Hh Hd Hu [O1 O2]. split.
  - intros [|x l1] k' v' l2 E Hk; cbn [app] in E.
    + injection E as <- <- <-. destruct Hu; [contradiction|assumption].
    + injection E as _ E. eapply O1; eauto.
  - intros k' v' [E|Hi]; [|eauto]. injection E as <- <-. auto.
Qed.
Lemma orderly_nil : orderly [].
Proof. split; [intros [|? ?] k v l2 E; discriminate|intros k v []]. Qed.

Lemma clap_ok n : forall words seen m, length words <= n -> ~ In FInput seen -> clap_words seen words = Some m ->
  tells words (map item m) /\ orderly (map item m) /\ (forall f, In f seen -> untold (map item m) (key_of f)).
Proof.
  induction n as [|n IH]; intros [|w rest] seen m Hn Hs H; cbn [Datatypes.length] in Hn; try lia.
  1,2: cbn in H; injection H as <-; (split; [apply te_end|]); (split; [apply orderly_nil|intros f Hf v []]).
  cbn [clap_words] in H. destruct (find (fun a => named a w) declared) as [a|] eqn:Ea; [|discriminate].
  apply declared_ok in Ea as (Hw & Hv & Hin). remember (arg_field a) as f.
  assert (Hh : key_of f <> KHelp) by (destruct f; discriminate).
  destruct (arg_takes a) eqn:Et.
  - destruct rest as [|v rest']; [discriminate|]. destruct (dashed v) eqn:Ed; [discriminate|].
    destruct (clap_words seen rest') as [m'|] eqn:Em; [|discriminate]. injection H as <-. cbn [Datatypes.length] in Hn.
    apply IH in Em as (H1 & H2 & H3); [|lia|exact Hs]. assert (Ef : f = FInput) by (apply key_of_inj; apply Hin; reflexivity).
    cbn [map item fst snd]. split; [|split].
    + apply te_value; auto. apply Hv. discriminate.
    + apply orderly_cons; auto; [|left; apply Hin; reflexivity]. intros G. apply dashed_ok in G. cbn [snd] in G. congruence.
    + intros g Hg. apply untold_cons; [apply H3; exact Hg|]. intros E. apply key_of_inj in E. rewrite <- E in Hg. try rewrite Ef in Hg. contradiction.
  - destruct (in_dec field_eq f seen) as [_|Hf]; [discriminate|]. destruct rest as [|v rest']; [discriminate|]. destruct (dashed v) eqn:Ed; [discriminate|].
    destruct (clap_words (f :: seen) rest') as [m'|] eqn:Em; [|discriminate]. injection H as <-. cbn [Datatypes.length] in Hn.
    assert (Ef : f <> FInput) by (intros ->; destruct Hin as [Hin _]; discriminate Hin; reflexivity).
    apply IH in Em as (H1 & H2 & H3); [|lia|intros [G|G]; auto].
    cbn [map item fst snd]. split; [|split].
    + apply te_value; auto. apply Hv. discriminate.
    + apply orderly_cons; auto; [|right; apply H3; left; reflexivity]. intros G. apply dashed_ok in G. cbn [snd] in G. congruence.
    + intros g Hg. apply untold_cons; [apply H3; right; exact Hg|]. intros E. apply key_of_inj in E. rewrite <- E in Hg. try rewrite Ef in Hg. contradiction.
  - destruct (in_dec field_eq f seen) as [_|Hf]; [discriminate|].
    destruct (clap_words (f :: seen) rest) as [m'|] eqn:Em; [|discriminate]. injection H as <-.
    assert (Ef : f <> FInput) by (intros ->; destruct Hin as [Hin _]; discriminate Hin; reflexivity).
    apply IH in Em as (H1 & H2 & H3); [|lia|intros [G|G]; auto].
    cbn [map item fst snd]. split; [|split].
    + apply te_switch; auto. intros G. apply Hv in G. apply G. reflexivity.
    + apply orderly_cons; auto; [|right; apply H3; left; reflexivity]. intros (c & t & E). discriminate E.
    + intros g Hg. apply untold_cons; [apply H3; right; exact Hg|]. intros E. apply key_of_inj in E. rewrite <- E in Hg. try rewrite Ef in Hg. contradiction.
Qed.

Lemma clap_complete words l : tells words l -> orderly l -> forall seen, ~ In FInput seen -> (forall f, In f seen -> untold l (key_of f)) ->
  exists m, clap_words seen words = Some m /\ l = map item m.
Proof.
  induction 1 as [|k w v ws l Hw Hk H IH|k w ws l Hw Hk H IH]; intros HO seen Hs Hu.
  - exists []. auto.
  - assert (HO2 := HO). destruct HO2 as [O1 O2]. destruct (O2 k v (or_introl eq_refl)) as [Hh Hd].
    destruct (declared_all _ _ Hw Hh) as (a & Ea & Ek). cbn [clap_words]. rewrite Ea. apply declared_ok in Ea as (_ & Hv & Hin).
    rewrite Ek in Hv, Hin.
    assert (Ed : dashed v = false) by (destruct (dashed v) eqn:E; auto; apply dashed_ok in E; contradiction).
    assert (Hu' : forall f, In f seen -> untold l (key_of f)) by (intros f Hf v' Hi; apply (Hu f Hf v'); right; exact Hi).
    destruct (arg_takes a) eqn:Et.
    + rewrite Ed. destruct (IH (orderly_tail _ _ HO) seen Hs Hu') as (m & -> & ->). eexists. split; [reflexivity|]. cbn. unfold item at 2. cbn. rewrite Ek. reflexivity.
    + destruct (in_dec field_eq (arg_field a) seen) as [Hi|Hi]; [exfalso; apply (Hu _ Hi v); left; rewrite Ek; reflexivity|]. rewrite Ed.
      assert (Hk' : k <> KInput) by (intros G; apply Hin in G; discriminate).
      destruct (IH (orderly_tail _ _ HO) (arg_field a :: seen)) as (m & -> & ->).
      * intros [G|G]; auto. rewrite G in Ek. cbn in Ek. congruence.
      * intros f [<-|Hf]; auto. rewrite Ek. apply (O1 [] k v l); auto.
      * eexists. split; [reflexivity|]. cbn. unfold item at 2. cbn. rewrite Ek. reflexivity.
    + apply Hv in Hk. congruence.
  - assert (HO2 := HO). destruct HO2 as [O1 O2]. destruct (O2 k "" (or_introl eq_refl)) as [Hh Hd].
    destruct (declared_all _ _ Hw Hh) as (a & Ea & Ek). cbn [clap_words]. rewrite Ea. apply declared_ok in Ea as (_ & Hv & Hin).
    rewrite Ek in Hv, Hin.
    assert (Et : arg_takes a = Switch) by (destruct (arg_takes a); auto; exfalso; apply Hk, Hv; discriminate). rewrite Et.
    assert (Hu' : forall f, In f seen -> untold l (key_of f)) by (intros f Hf v' Hi; apply (Hu f Hf v'); right; exact Hi).
    destruct (in_dec field_eq (arg_field a) seen) as [Hi|Hi]; [exfalso; apply (Hu _ Hi ""); left; rewrite Ek; reflexivity|].
    assert (Hk' : k <> KInput) by (intros ->; apply Hk; exact I).
    destruct (IH (orderly_tail _ _ HO) (arg_field a :: seen)) as (m & -> & ->).
    + intros [G|G]; auto. rewrite G in Ek. cbn in Ek. congruence.
    + intros f [<-|Hf]; auto. rewrite Ek. apply (O1 [] k "" l); auto.
    + eexists. split; [reflexivity|]. cbn. unfold item at 2. cbn. rewrite Ek. reflexivity.
Qed.

Lemma found_nil m f : found m f = [] <-> untold (map item m) (key_of f).
Proof.
  unfold found. induction m as [|[g v] m IH]; cbn [filter map fst snd].
  - split; [intros _ v []|auto].
  - destruct (field_eq g f) as [->|Hg]; cbn [map].
    + split; [discriminate|]. intros G. exfalso. apply (G v). left. reflexivity.
    + rewrite IH. split; intros G.
      * apply untold_cons; auto. intros E. apply key_of_inj in E. contradiction.
      * intros v' Hi. apply (G v'). right. exact Hi.
Qed.
Lemma found_cons m f v r : found m f = v :: r -> In (key_of f, v) (map item m) /\ (f <> FInput -> orderly (map item m) -> last_told (map item m) (key_of f) v).
Proof.
  unfold found. induction m as [|[g w] m IH]; cbn [filter map fst snd]; [discriminate|].
  destruct (field_eq g f) as [->|Hg]; cbn [map].
  - intros H. injection H as <- _. split; [left; reflexivity|]. intros Hf [O1 _]. exists [], (map item m). split; [reflexivity|].
    apply (O1 [] (key_of f) w (map item m)); [reflexivity|]. intros E. apply Hf, key_of_inj. exact E.
  - intros H. destruct (IH H) as [H1 H2]. split; [right; exact H1|]. intros Hf HO. apply last_told_cons, H2; eauto using orderly_tail.
Qed.
Lemma found_inputs m : inputs_told (map item m) (found m FInput).
Proof.
  unfold found. induction m as [|[g v] m IH]; cbn [filter map fst snd]; [constructor|].
  destruct (field_eq g FInput) as [->|Hg]; cbn [map]; [apply it_input; exact IH|].
  apply it_other; auto. cbn. intros E. apply Hg, key_of_inj. exact E.
Qed.
Lemma flagged_switch m f : switch (map item m) (key_of f) false (flagged m f).
Proof.
  unfold flagged. destruct (found m f) as [|v r] eqn:E.
  - apply found_nil in E. split; [discriminate|]. intros [G|[v Hv]]; [discriminate|]. destruct (E v Hv).
  - apply found_cons in E as [E _]. split; auto. intros _. right. eauto.
Qed.
Lemma valued_setting {A} (rd : string -> A -> Prop) m f (p : string -> outcome A) d x0 x : orderly (map item m) -> f <> FInput ->
  (forall v y, p v = Ok y -> rd v y) -> d = Ok x0 -> valued m f p d = Ok x ->
  setting rd (map item m) (key_of f) x0 x.
Proof.
  intros HO Hf Hp -> H. unfold valued in H. destruct (found m f) as [|v r] eqn:E.
  - right. split; [apply found_nil; exact E|congruence].
  - left. exists v. split; [eapply found_cons; eauto|auto].
Qed.
Lemma valued_total {A} (rd : string -> A -> Prop) m f (p : string -> outcome A) x0 : (forall v, In (key_of f, v) (map item m) -> exists y, rd v y) ->
  (forall v y, rd v y -> p v = Ok y) -> exists x, valued m f p (Ok x0) = Ok x.
Proof.
  intros H Hp. unfold valued. destruct (found m f) as [|v r] eqn:E; [eauto|]. apply found_cons in E as [E _]. destruct (H v E) as [y Hy]. eauto.
Qed.
(** An option given at most once: its value is the last one. *)
Lemma orderly_last l k v : orderly l -> k <> KInput -> In (k, v) l -> last_told l k v.
Proof. intros [O1 _] Hk Hi. apply in_split in Hi as (l1 & l2 & ->). exists l1, l2. split; auto. apply (O1 l1 k v l2); auto. Qed.
