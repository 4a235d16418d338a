(** The inline forms of the command line. *)
From Verif Require Import Base.
From Verif Require Import M_Script Spec_Script P_Script1 M_Args Spec_Args P_Args M_Inline Spec_Inline.
From Coq Require Import String Ascii.
Notation length := Datatypes.length.
Notation get := Base.get.
Open Scope string_scope.
Open Scope list_scope.

Lemma short_ok c a : short_arg c = Some a -> In (String "-" (String c "")) (names (key_of (arg_field a))) /\
  (with_value (key_of (arg_field a)) <-> arg_takes a <> Switch) /\ c <> "-"%char.
Proof.
  intros H. apply find_some in H as [Hi Hn]. cbn [declared In] in Hi.
  repeat destruct Hi as [<-|Hi]; try destruct Hi; cbn [arg_short] in Hn; try discriminate; apply String.eqb_eq in Hn; injection Hn as ->;
    (split; [left; reflexivity|split; [cbn; split; [intros G; try discriminate; destruct G|intros G; try exact I; destruct (G eq_refl)]|discriminate]]).
Qed.
Lemma short_all k c : In (String "-" (String c "")) (names k) -> k <> KHelp -> exists a, short_arg c = Some a /\ key_of (arg_field a) = k.
Proof.
  intros H Hk. destruct k; try congruence; cbn [names In] in H; repeat match type of H with _ \/ _ => destruct H as [H|H] end; try (destruct H; fail); try discriminate; injection H as <-; (eexists; split; reflexivity).
Qed.
Lemma long_ok n a : long_arg n = Some a -> In n (names (key_of (arg_field a))) /\ (with_value (key_of (arg_field a)) <-> arg_takes a <> Switch).
Proof.
  intros H. apply find_some in H as [Hi Hn]. apply String.eqb_eq in Hn. subst n. cbn [declared In] in Hi.
  repeat destruct Hi as [<-|Hi]; try destruct Hi; (split; [cbn; auto|]); cbn; split; try tauto; try (intros _; discriminate); intros G; congruence.
Qed.
Lemma long_all k n : In (String "-" (String "-" n)) (names k) -> k <> KHelp ->
  exists a, long_arg (String "-" (String "-" n)) = Some a /\ key_of (arg_field a) = k /\ n <> "" /\ cut n = (n, None) /\ forall v, cut (n ++ String "=" v) = (n, Some v).
Proof.
  intros H Hk. destruct k; try congruence; cbn [names In] in H; repeat match type of H with _ \/ _ => destruct H as [H|H] end; try (destruct H; fail); try discriminate; injection H as <-;
    (eexists; split; [reflexivity|]; split; [reflexivity|]; split; [discriminate|]; split; [reflexivity|intros v; reflexivity]).
Qed.
Lemma cut_none s : forall n, cut s = (n, None) -> s = n.
Proof.
  induction s as [|c s IH]; cbn [cut]; intros n H; [congruence|]. destruct (Ascii.eqb_spec c "="); [discriminate|].
  destruct (cut s) as [n' v']. injection H as <- ->. f_equal. auto.
Qed.
Lemma cut_some s : forall n v, cut s = (n, Some v) -> s = (n ++ String "=" v)%string.
Proof.
  induction s as [|c s IH]; cbn [cut]; intros n v H; [discriminate|]. destruct (Ascii.eqb_spec c "=") as [->|]; [injection H as <- <-; reflexivity|].
  destruct (cut s) as [n' v']. injection H as <- ->. cbn. f_equal. auto.
Qed.

(** ** Soundness *)
Definition fs_items (fs : list field) : list (key * string) := map item (map on fs).
Lemma cluster_ok s : forall c fs p, cluster (String c s) = Some (fs, p) -> c <> "-"%char /\
  match p with
  | None => forall ws l, said ws l -> said (String "-" (String c s) :: ws) (fs_items fs ++ l)
  | Some (f, "") => forall ws l v, ~ option_like v -> said ws l -> said (String "-" (String c s) :: v :: ws) (fs_items fs ++ (key_of f, v) :: l)
  | Some (f, t) => forall ws l, said ws l -> said (String "-" (String c s) :: ws) (fs_items fs ++ (key_of f, attached t) :: l)
  end.
Proof.
  induction s as [|x s IH]; intros c fs p H; cbn [cluster] in H; (destruct (short_arg c) as [a|] eqn:Ea; [|discriminate]);
    apply short_ok in Ea as (Hw & Hv & Hc); (split; [exact Hc|]).
  - destruct (arg_takes a) eqn:Et; injection H as <- <-; cbn [fs_items map app].
    1,2: intros ws l v Hd Hs; apply sd_value; auto; apply Hv; discriminate.
    intros ws l Hs. apply sd_switch; auto; [intros G; apply Hv in G; congruence|destruct (arg_field a); discriminate].
  - assert (Hval : arg_takes a <> Switch -> forall ws l, said ws l -> said (String "-" (String c (String x s)) :: ws) ((key_of (arg_field a), attached (String x s)) :: l)).
    { intros Ht ws l Hs. cbn [attached]. destruct (Ascii.eqb_spec x "=") as [->|Hx]; [apply sd_joined_equals|apply sd_joined]; auto; apply Hv; exact Ht. }
    destruct (arg_takes a) eqn:Et.
    1,2: injection H as <- <-; cbn [fs_items map app]; apply Hval; discriminate.
    change (match short_arg x with Some a0 => match arg_takes a0 with Switch => match cluster s with Some (fs0, p0) => Some (arg_field a0 :: fs0, p0) | None => None end
        | _ => Some ([], Some (arg_field a0, s)) end | None => None end) with (cluster (String x s)) in H.
    destruct (cluster (String x s)) as [[fs' p']|] eqn:EC; [|discriminate]. injection H as <- <-. apply IH in EC as [Hx EC].
    assert (Hsw : ~ with_value (key_of (arg_field a))) by (intros G; apply Hv in G; congruence).
    assert (Hh : key_of (arg_field a) <> KHelp) by (destruct (arg_field a); discriminate).
    assert (Hn : forall ws l v, said (String "-" (String x s) :: ws) l -> said (String "-" (String c (String x s)) :: ws) ((key_of (arg_field a), v) :: l) \/ v <> "").
    { intros ws l v Hs. destruct v; [left|right; discriminate]. apply sd_cluster; auto. }
    assert (Hn' : forall ws l, said (String "-" (String x s) :: ws) l -> said (String "-" (String c (String x s)) :: ws) ((key_of (arg_field a), "") :: l)).
    { intros ws l Hs. destruct (Hn ws l "" Hs) as [?|?]; [assumption|congruence]. }
    destruct p' as [[f [|t0 t]]|]; cbn [fs_items map app]; intros ws l; [intros v Hd Hs|intros Hs|intros Hs]; apply Hn'; apply EC; auto.
Qed.

Lemma read_ok w r : read_word w = Some r ->
  match r with
  | Dashes => w = "--"
  | Says m => forall ws l, said ws l -> said (w :: ws) (map item m ++ l)
  | Needs m f => forall ws l v, ~ option_like v -> said ws l -> said (w :: v :: ws) (map item m ++ (key_of f, v) :: l)
  end.
Proof.
  destruct w as [|d [|d' name]]; try discriminate. cbn [read_word]. destruct (Ascii.eqb_spec d "-") as [->|]; [|discriminate]. cbn [negb].
  destruct (Ascii.eqb_spec d' "-") as [->|Hd].
  - destruct (String.eqb_spec name "") as [->|Hne]; [intros H; injection H as <-; reflexivity|].
    destruct (cut name) as [n inline] eqn:EC. destruct (long_arg _) as [a|] eqn:Ea; [|discriminate]. apply long_ok in Ea as (Hw & Hv).
    assert (Hh : key_of (arg_field a) <> KHelp) by (destruct (arg_field a); discriminate).
    assert (G1 : forall v, arg_takes a <> Switch -> inline = Some v -> forall ws l, said ws l -> said (String "-" (String "-" name) :: ws) ((key_of (arg_field a), v) :: l)).
    { intros v Ht -> ws l Hs. apply cut_some in EC. rewrite EC. apply (sd_equals (key_of (arg_field a)) n v ws l); auto. apply Hv, Ht. }
    assert (G2 : arg_takes a <> Switch -> inline = None -> forall ws l v, ~ option_like v -> said ws l -> said (String "-" (String "-" name) :: v :: ws) ((key_of (arg_field a), v) :: l)).
    { intros Ht -> ws l v Hd Hs. apply cut_none in EC. subst n. apply sd_value; auto. apply Hv, Ht. }
    destruct (arg_takes a) eqn:Et; destruct inline as [v|]; intros H; try discriminate; injection H as <-; cbn [map item fst snd app on]; auto.
    all: try (apply G1; [discriminate|reflexivity]); try (apply G2; [discriminate|reflexivity]).
    intros ws l Hs. apply cut_none in EC. subst n. apply sd_switch; auto. intros G. apply Hv in G. congruence.
  - destruct (cluster (String d' name)) as [[fs p]|] eqn:EC; [|discriminate]. apply cluster_ok in EC as [_ EC].
    destruct p as [[f [|t0 t]]|]; intros H; injection H as <-; auto.
    intros ws l Hs. rewrite map_app, <- app_assoc. apply EC. exact Hs.
Qed.
Lemma items_ok n : forall words m, length words <= n -> clap_items words = Some m -> said words (map item m).
Proof.
  induction n as [|n IH]; intros [|w rest] m Hn H; cbn [Datatypes.length] in Hn; try lia; try (cbn in H; injection H as <-; constructor).
  cbn [clap_items] in H. destruct (read_word w) as [r|] eqn:Er; [|discriminate]. apply read_ok in Er. destruct r as [|m0 f|m0].
  - subst w. destruct rest; [|discriminate]. injection H as <-. constructor.
  - destruct rest as [|v rest']; [discriminate|]. destruct (dashed v) eqn:Ed; [discriminate|]. cbn [Datatypes.length] in Hn.
    destruct (clap_items rest') as [m'|] eqn:Em; [|discriminate]. cbn in H. injection H as <-. rewrite map_app. cbn [map]. apply Er.
    + intros G. apply dashed_ok in G. congruence.
    + apply IH; [lia|auto].
  - destruct (clap_items rest) as [m'|] eqn:Em; [|discriminate]. cbn in H. injection H as <-. rewrite map_app. apply Er. apply IH; [lia|auto].
Qed.

(** ** Completeness *)
Lemma read_short c s : c <> "-"%char -> read_word (String "-" (String c s)) =
  match cluster (String c s) with
  | None => None
  | Some (fs, None) => Some (Says (map on fs))
  | Some (fs, Some (f, "")) => Some (Needs (map on fs) f)
  | Some (fs, Some (f, t)) => Some (Says (map on fs ++ [(f, attached t)]))
  end.
Proof. intros H. unfold read_word. rewrite Ascii.eqb_refl. cbn [negb]. destruct (Ascii.eqb_spec c "-"); [congruence|reflexivity]. Qed.
Lemma names_shape k w : In w (names k) -> (exists c, w = String "-" (String c "") /\ c <> "-"%char) \/ (exists n, w = String "-" (String "-" n) /\ n <> "").
Proof.
  intros H. destruct k; cbn [names In] in H; repeat destruct H as [<-|H]; try destruct H;
    first [left; eexists; split; [reflexivity|discriminate]|right; eexists; split; [reflexivity|discriminate]].
Qed.
(** The reading of a plain name. *)
Lemma read_name k w : In w (names k) -> k <> KHelp -> exists f, key_of f = k /\
  (with_value k /\ read_word w = Some (Needs [] f) \/ ~ with_value k /\ read_word w = Some (Says [on f])).
Proof.
  intros H Hk. destruct k; try congruence; cbn [names In] in H;
    [exists FInput|exists FOutput|exists FAny|exists FExp|exists FTimeout|exists FCsTimeout|exists FNoCs|exists FNoCsSimp|exists FThreads|exists FNeighbors|exists FGreedy];
    (split; [reflexivity|]); repeat destruct H as [<-|H]; try destruct H;
    first [left; split; [exact I|reflexivity]|right; split; [intros []|reflexivity]].
Qed.
Lemma value_not_help k : with_value k -> k <> KHelp.
Proof. destruct k; cbn; congruence || tauto. Qed.
Lemma items_complete words l : said words l -> exists m, clap_items words = Some m /\ l = map item m.
Proof.
  induction 1 as [| |k w v ws l Hw Hk Hd H IH|k w ws l Hw Hk Hh H IH|k n v ws l Hw Hk H IH|k c x v ws l Hw Hk Hx H IH|k c v ws l Hw Hk H IH|k c x rest ws l Hw Hk Hh Hx H IH].
  - exists []. auto.
  - exists []. auto.
  - destruct IH as (m & E & ->). destruct (read_name k w Hw (value_not_help k Hk)) as (f & <- & [[_ Er]|[G _]]); [|contradiction].
    exists ((f, v) :: m). split; [|reflexivity]. cbn [clap_items]. rewrite Er. destruct (dashed v) eqn:Ed; [apply dashed_ok in Ed; contradiction|]. rewrite E. reflexivity.
  - destruct IH as (m & E & ->). destruct (read_name k w Hw Hh) as (f & <- & [[G _]|[_ Er]]); [contradiction|].
    exists (on f :: m). split; [|reflexivity]. cbn [clap_items]. rewrite Er, E. reflexivity.
  - destruct IH as (m & E & ->). destruct (long_all k n Hw (value_not_help k Hk)) as (a & Ea & <- & Hne & _ & Hcut).
    exists ((arg_field a, v) :: m). split; [|reflexivity]. cbn [clap_items]. change ((String "-" (String "-" n) ++ "=" ++ v)%string) with (String "-" (String "-" (n ++ String "=" v))).
    unfold read_word. rewrite !Ascii.eqb_refl. cbn [negb]. destruct (String.eqb_spec (n ++ String "=" v) "") as [G|_]; [destruct n; discriminate|].
    rewrite Hcut, Ea. pose proof (proj2 (long_ok _ _ Ea)) as Hv. apply Hv in Hk. destruct (arg_takes a); try congruence; rewrite E; reflexivity.
  - destruct IH as (m & E & ->). destruct (short_all k c Hw (value_not_help k Hk)) as (a & Ea & <-). pose proof (short_ok c a Ea) as (_ & Hv & Hc). apply Hv in Hk.
    exists ((arg_field a, String x v) :: m). split; [|reflexivity]. cbn [clap_items]. rewrite read_short by exact Hc. cbn [cluster]. rewrite Ea.
    assert (EA : attached (String x v) = String x v) by (cbn [attached]; destruct (Ascii.eqb_spec x "="); [congruence|reflexivity]).
    destruct (arg_takes a); try congruence; rewrite EA, E; reflexivity.
  - destruct IH as (m & E & ->). destruct (short_all k c Hw (value_not_help k Hk)) as (a & Ea & <-). pose proof (short_ok c a Ea) as (_ & Hv & Hc). apply Hv in Hk.
    exists ((arg_field a, v) :: m). split; [|reflexivity]. cbn [clap_items]. rewrite read_short by exact Hc. cbn [cluster]. rewrite Ea.
    destruct (arg_takes a); try congruence; rewrite E; reflexivity.
  - destruct IH as (m & E & ->). destruct (short_all k c Hw Hh) as (a & Ea & <-). pose proof (short_ok c a Ea) as (_ & Hv & Hc).
    assert (Et : arg_takes a = Switch) by (destruct (arg_takes a); auto; exfalso; apply Hk, Hv; discriminate).
    exists (on (arg_field a) :: m). split; [|reflexivity]. cbn [clap_items] in E |- *. rewrite read_short in E by exact Hx. rewrite read_short by exact Hc.
    remember (String x rest) as w. cbn [cluster]. rewrite Ea, Et. destruct (cluster w) as [[fs [[f [|t0 t]]|]]|]; try discriminate.
    + destruct ws as [|v ws']; [discriminate|]. destruct (dashed v); [discriminate|]. destruct (clap_items ws') as [m'|]; [|discriminate]. cbn in E |- *. injection E as <-. reflexivity.
    + destruct (clap_items ws) as [m'|]; [|discriminate]. cbn in E |- *. injection E as <-. reflexivity.
    + destruct (clap_items ws) as [m'|]; [|discriminate]. cbn in E |- *. injection E as <-. reflexivity.
Qed.

(** ** Options given once *)
Lemma once_tail x l : once (x :: l) -> once l.
Proof. intros H l1 k v l2 -> Hk. apply (H (x :: l1) k v l2); auto. Qed.
Lemma once_b_ok m : once_b m = true <-> once (map item m).
Proof.
  induction m as [|[f v] m IH]; cbn [once_b map].
  - split; auto. intros _ [|? ?] k v l2 E; discriminate.
  - rewrite Bool.andb_true_iff, IH. split.
    + intros [H1 H2] [|x l1] k v' l2 E Hk; cbn [app] in E.
      * injection E as <- <- <-. destruct (field_eq f FInput) as [->|Hf]; [destruct Hk; reflexivity|].
        intros v2 Hi. apply in_map_iff in Hi as ([g w] & E & Hi). injection E as E _. apply key_of_inj in E. subst g.
        apply Bool.negb_true_iff in H1. apply Bool.not_true_iff_false in H1. apply H1. apply existsb_exists. exists (f, w). split; auto. cbn. destruct (field_eq f f); auto.
      * injection E as _ E. eapply H2; eauto.
    + intros H. split; [|eapply once_tail; eauto]. destruct (field_eq f FInput) as [|Hf]; auto. apply Bool.negb_true_iff, Bool.not_true_iff_false.
      intros G. apply existsb_exists in G as ([g w] & Hi & G). cbn in G. destruct (field_eq g f) as [->|]; [|discriminate].
      apply (H [] (key_of f) v (map item m) eq_refl) with (v := w); [intros E; apply Hf, key_of_inj; exact E|]. apply in_map_iff. exists (f, w). auto.
Qed.
Lemma once_last l k v : once l -> k <> KInput -> In (k, v) l -> last_told l k v.
Proof. intros O1 Hk Hi. apply in_split in Hi as (l1 & l2 & ->). exists l1, l2. split; auto. apply (O1 l1 k v l2); auto. Qed.
Lemma once_setting {A} (rd : string -> A -> Prop) m f (p : string -> outcome A) d x0 x : once (map item m) -> f <> FInput ->
  (forall v y, p v = Ok y -> rd v y) -> d = Ok x0 -> valued m f p d = Ok x ->
  setting rd (map item m) (key_of f) x0 x.
Proof.
  intros HO Hf Hp -> H. unfold valued in H. destruct (found m f) as [|v r] eqn:E.
  - right. split; [apply found_nil; exact E|congruence].
  - left. exists v. split; [|auto]. apply once_last; auto; [intros G; apply Hf, key_of_inj; exact G|]. eapply found_cons; eauto.
Qed.
