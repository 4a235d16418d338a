(** The reader state during a script: handles, names, registration order. *)
From Verif Require Import Base M_Data M_Names M_Build P_Resolve M_Script Spec_Script P_Script1 P_Names.
From Coq Require Import String Ascii Sorted.
Notation length := Datatypes.length.
Notation get := Base.get.

(** ** Traces *)
Lemma handle_eqb_ok a b : handle_eqb a b = true <-> a = b.
Proof.
  destruct a, b; cbn; try (split; [discriminate|congruence]); rewrite Nat.eqb_eq; split; congruence.
Qed.
Lemma existsb_handle h l : existsb (handle_eqb h) l = true <-> In h l.
Proof.
  rewrite existsb_exists. split; [intros (x & Hx & He); apply handle_eqb_ok in He; congruence|].
  intros H. exists h. split; auto. apply handle_eqb_ok; auto.
Qed.
Lemma firsts_in l : forall seen h, In h (firsts seen l) <-> In h l /\ ~ In h seen.
Proof.
  induction l as [|x t IH]; intros seen h; cbn [firsts]; [cbn; tauto|].
  destruct (existsb (handle_eqb x) seen) eqn:E.
  - apply existsb_handle in E. rewrite IH. cbn [In]. split; [tauto|]. intros [[-> |H] Hn]; tauto.
  - assert (~ In x seen) by (intros H; apply existsb_handle in H; congruence).
    cbn [In]. rewrite IH. cbn [In]. split.
    + intros [<- |[H1 H2]]; [auto|]. tauto.
    + intros [[<- |H1] H2]; [auto|]. destruct (handle_eqb x h) eqn:Eh.
      * apply handle_eqb_ok in Eh. auto.
      * right. split; auto. intros [<- |Hs]; auto. rewrite (proj2 (handle_eqb_ok x x)) in Eh; congruence.
Qed.
Lemma firsts_app l : forall seen h,
  firsts seen (l ++ [h]) = firsts seen l ++ (if existsb (handle_eqb h) (seen ++ l) then [] else [h]).
Proof.
  induction l as [|x t IH]; intros seen h; cbn [firsts List.app].
  - rewrite app_nil_r. destruct (existsb _ seen); auto.
  - destruct (existsb (handle_eqb x) seen) eqn:E.
    + rewrite IH. f_equal.
      destruct (existsb (handle_eqb h) (seen ++ t)) eqn:E1, (existsb (handle_eqb h) (seen ++ x :: t)) eqn:E2; auto.
      * exfalso. apply existsb_handle in E1. apply in_app_or in E1.
        assert (In h (seen ++ x :: t)) by (apply in_or_app; cbn; tauto). apply existsb_handle in H. congruence.
      * exfalso. apply existsb_handle in E2. apply existsb_handle in E.
        assert (In h (seen ++ t)). { apply in_or_app. apply in_app_or in E2 as [H|[<- |H]]; auto. }
        apply existsb_handle in H. congruence.
    + rewrite IH. cbn [List.app]. f_equal. f_equal.
      assert (X : existsb (handle_eqb h) (x :: seen ++ t) = existsb (handle_eqb h) (seen ++ x :: t)).
      { apply Bool.eq_iff_eq_true. rewrite !existsb_handle. cbn [In]. rewrite !in_app_iff. cbn [In]. tauto. }
      cbn [List.app] in *. rewrite X. auto.
Qed.
Lemma firsts_nodup l : forall seen, NoDup (firsts seen l).
Proof.
  induction l as [|x t IH]; intros seen; cbn [firsts]; [constructor|].
  destruct (existsb _ _); auto. constructor; auto. rewrite firsts_in. cbn; tauto.
Qed.
Lemma issued_app t1 t2 : issued (t1 ++ t2) = issued t1 ++ issued t2.
Proof. unfold issued. apply flat_map_app. Qed.
Lemma issued_one e : issued [e] = returned (snd e).
Proof. unfold issued. cbn. apply app_nil_r. Qed.
Lemma additions_in tr h : In h (additions tr) <-> exists r, In (OpAdd h, Ok r) tr.
Proof.
  unfold additions. rewrite firsts_in, in_flat_map. split.
  - intros [(e & He & Ha) _]. destruct e as [[]  []]; cbn in Ha; try contradiction. destruct Ha as [<- |[]]. eauto.
  - intros (r & H). split; [|intros []]. exists (OpAdd h, Ok r). cbn; auto.
Qed.
Lemma additions_same tr e : added e = [] -> additions (tr ++ [e]) = additions tr.
Proof. intros H. unfold additions. rewrite flat_map_app. cbn [flat_map]. rewrite H, !app_nil_r. auto. Qed.
Lemma additions_add tr h r :
  additions (tr ++ [(OpAdd h, Ok r)]) = additions tr ++ (if existsb (handle_eqb h) (additions tr) then [] else [h]).
Proof.
  assert (X : existsb (handle_eqb h) (flat_map added tr) = existsb (handle_eqb h) (additions tr)).
  { apply Bool.eq_iff_eq_true. rewrite !existsb_handle. unfold additions. rewrite firsts_in. cbn; tauto. }
  rewrite <- X. unfold additions. rewrite flat_map_app. cbn [flat_map added List.app]. rewrite firsts_app. reflexivity.
Qed.
Lemma created_app tr e h n : created_as tr h n -> created_as (tr ++ [e]) h n.
Proof.
  intros (t1 & x & t2 & -> & H1 & H2). exists t1, x, (t2 ++ [e]). rewrite <- app_assoc. auto.
Qed.
Lemma created_issued tr h n : created_as tr h n -> In h (issued tr).
Proof.
  intros (t1 & x & t2 & -> & _). rewrite issued_app. apply in_or_app. right. cbn. auto.
Qed.
Lemma created_unique tr h n m : created_as tr h n -> created_as tr h m -> n = m.
Proof.
  intros (t1 & x & t2 & H & Hn & Hx) (u1 & y & u2 & H' & Hn' & Hy).
  assert (length t1 = length u1).
  { destruct (Nat.lt_trichotomy (length t1) (length u1)) as [L|[L|L]]; auto; exfalso.
    - apply Hn'. assert (E : nth_error tr (length t1) = Some (x, Ok (Some h))).
      { rewrite H, nth_error_app2, Nat.sub_diag; auto. }
      rewrite H', nth_error_app1 in E by lia. apply nth_error_In in E.
      unfold issued. apply in_flat_map. exists (x, Ok (Some h)). cbn; auto.
    - apply Hn. assert (E : nth_error tr (length u1) = Some (y, Ok (Some h))).
      { rewrite H', nth_error_app2, Nat.sub_diag; auto. }
      rewrite H, nth_error_app1 in E by lia. apply nth_error_In in E.
      unfold issued. apply in_flat_map. exists (y, Ok (Some h)). cbn; auto. }
  assert (E : nth_error tr (length t1) = Some (x, Ok (Some h))).
  { rewrite H, nth_error_app2, Nat.sub_diag; auto. }
  rewrite H', H0, nth_error_app2, Nat.sub_diag in E by lia. cbn in E. congruence.
Qed.

(** ** One kind of object *)
Section Kind.
Context {A : Type} (nm : A -> string) (mk : nat -> handle) (isk : handle -> bool).
Hypothesis isk_mk : forall i, isk (mk i) = true.
Hypothesis isk_inv : forall h, isk h = true -> exists i, h = mk i.
Hypothesis mk_inj : forall i j, mk i = mk j -> i = j.

(** Structure: holds with renaming too. *)
Record kstr (objs : list (A * bool)) (ids : list nat) (tr : list event) : Prop := {
  k_ids : map mk ids = filter isk (additions tr);
  k_lt : forall i, In i ids -> i < length objs;
  k_flag : forall i ob, nth_error objs i = Some ob -> (snd ob = true <-> In i ids);
  k_issued : forall i, In (mk i) (issued tr) <-> i < length objs
}.
(** Names: holds without renaming. *)
Record knam (objs : list (A * bool)) (ids : list nat) (tr : list event) : Prop := {
  k_dist : forall i j oi oj, In i ids -> In j ids -> nth_error objs i = Some oi -> nth_error objs j = Some oj ->
           nm (fst oi) = nm (fst oj) -> i = j;
  k_name : forall i ob, nth_error objs i = Some ob -> created_as tr (mk i) (nm (fst ob))
}.

Lemma kstr_nil : kstr [] [] [].
Proof.
  split; cbn.
  - auto.
  - intros i [].
  - intros [|i] ob; discriminate.
  - intros i. lia.
Qed.
Lemma knam_nil : knam [] [] [].
Proof. split; [intros i j oi oj []|intros [|i] ob; discriminate]. Qed.

(** Events of other kinds, failures, repeated handles. *)
Definition quiet (tr : list event) (e : event) : Prop :=
  (forall h, In h (returned (snd e)) -> isk h = true -> In h (issued tr)) /\
  (forall h, In h (added e) -> isk h = true -> In h (additions tr)).
Lemma quiet_additions tr e : quiet tr e -> filter isk (additions (tr ++ [e])) = filter isk (additions tr).
Proof.
  intros [_ H]. destruct (added e) as [|h l] eqn:Ea.
  - rewrite additions_same; auto.
  - destruct e as [[] []]; cbn in Ea; try discriminate. injection Ea as -> <-. rewrite additions_add, filter_app.
    destruct (existsb (handle_eqb h) (additions tr)) eqn:E; [cbn; apply app_nil_r|].
    cbn [filter]. destruct (isk h) eqn:Ek; [|apply app_nil_r]. exfalso.
    assert (X : In h (additions tr)) by (apply H; cbn; auto). apply existsb_handle in X. congruence.
Qed.
Lemma kstr_quiet objs ids tr e : kstr objs ids tr -> quiet tr e -> kstr objs ids (tr ++ [e]).
Proof.
  intros [K1 K2 K3 K4] Hq. split; auto.
  - rewrite quiet_additions; auto.
  - intros i. rewrite issued_app, in_app_iff, issued_one, K4. split; [|tauto]. intros [H|H]; auto.
    apply K4, Hq; auto.
Qed.
Lemma knam_quiet objs ids tr e : knam objs ids tr -> knam objs ids (tr ++ [e]).
Proof.
  intros [K1 K2]. split; auto. intros i ob H. apply created_app; auto.
Qed.

(** Creation. *)
Lemma kstr_create objs ids tr a e : kstr objs ids tr -> snd e = Ok (Some (mk (length objs))) -> added e = [] ->
  kstr (objs ++ [(a, false)]) ids (tr ++ [e]).
Proof.
  intros [K1 K2 K3 K4] He Ha. split.
  - rewrite additions_same; auto.
  - intros i Hi. rewrite app_length. apply K2 in Hi. cbn; lia.
  - intros i ob H. destruct (Nat.lt_ge_cases i (length objs)) as [L|L].
    + rewrite nth_error_app1 in H; auto.
    + rewrite nth_error_app2 in H by auto. destruct (i - length objs) as [|k] eqn:E; [|destruct k; discriminate].
      cbn in H. injection H as <-. cbn. split; [discriminate|]. intros Hi. apply K2 in Hi. lia.
  - intros i. rewrite issued_app, in_app_iff, issued_one, K4, He, app_length. cbn. split.
    + intros [H|[H|[]]]; [lia|]. apply mk_inj in H. lia.
    + intros H. destruct (Nat.eq_dec i (length objs)) as [-> |]; [auto|left; lia].
Qed.
Lemma knam_create objs ids tr a x : kstr objs ids tr -> knam objs ids tr -> asked_name x = Some (nm a) ->
  knam (objs ++ [(a, false)]) ids (tr ++ [(x, Ok (Some (mk (length objs))))]).
Proof.
  intros K [N1 N2] Hx. split.
  - intros i j oi oj Hi Hj Ei Ej E. rewrite nth_error_app1 in Ei by (eapply k_lt; eauto).
    rewrite nth_error_app1 in Ej by (eapply k_lt; eauto). eauto.
  - intros i ob H. destruct (Nat.lt_ge_cases i (length objs)) as [L|L].
    + rewrite nth_error_app1 in H; auto. apply created_app; auto.
    + rewrite nth_error_app2 in H by auto. destruct (i - length objs) as [|k] eqn:E; [|destruct k; discriminate].
      cbn in H. injection H as <-. cbn. assert (i = length objs) by lia. subst i.
      exists tr, x, []. split; [auto|]. split; [|auto]. intros Hi. apply (k_issued _ _ _ K) in Hi. lia.
Qed.

(** Registration. *)
Lemma register_cases objs ids id objs' ids' : register nm objs ids id = Ok (objs', ids') ->
  exists ob, nth_error objs id = Some ob /\
   (forall j oj, In j ids -> nth_error objs j = Some oj -> nm (fst oj) = nm (fst ob) -> j = id) /\
   ((In id ids /\ objs' = objs /\ ids' = ids) \/
    (~ In id ids /\ objs' = upd objs id (fst ob, true) /\ ids' = ids ++ [id])).
Proof.
  unfold register. intros H. apply bind_ok in H as (ob & Hob & H). apply get_ok in Hob.
  apply bind_ok in H as (dup & Hd & H). destruct dup; [discriminate|]. exists ob. split; auto. split.
  - clear H. intros j oj Hj Hoj E. induction ids as [|k t IH]; [destruct Hj|].
    cbn [mexists] in Hd. apply bind_ok in Hd as (b & Hb & Hd). destruct b; [discriminate|].
    destruct Hj as [-> |Hj]; [|apply IH; auto].
    destruct (Nat.eqb_spec j id) as [|Hne]; auto.
    apply bind_ok in Hb as (oj' & Ho & Hb). apply get_ok in Ho. rewrite Hoj in Ho. injection Ho as <-.
    rewrite E, String.eqb_refl in Hb. discriminate.
  - destruct (existsb (Nat.eqb id) ids) eqn:E.
    + left. injection H as <- <-. apply existsb_exists in E as (y & Hy & Ey). apply Nat.eqb_eq in Ey. subst. auto.
    + right. apply bind_ok in H as (o' & Ho & H). injection H as <- <-. apply set_ok in Ho as [_ ->].
      split; auto. intros Hi. assert (existsb (Nat.eqb id) ids = true); [|congruence].
      apply existsb_exists. exists id. split; auto. apply Nat.eqb_refl.
Qed.
Lemma kstr_register objs ids tr id objs' ids' : kstr objs ids tr -> register nm objs ids id = Ok (objs', ids') ->
  kstr objs' ids' (tr ++ [(OpAdd (mk id), Ok (Some (mk id)))]).
Proof.
  intros K H. apply register_cases in H as (ob & Hob & _ & [(Hi & -> & ->)|(Hi & -> & ->)]).
  - apply kstr_quiet; auto. split; cbn; intros h [<- |[]] _.
    + apply (k_issued _ _ _ K). apply nth_error_Some. congruence.
    + assert (In (mk id) (filter isk (additions tr))). { rewrite <- (k_ids _ _ _ K). apply in_map; auto. }
      apply filter_In in H. tauto.
  - destruct K as [K1 K2 K3 K4]. assert (L : id < length objs) by (apply nth_error_Some; congruence).
    assert (Hni : ~ In (mk id) (additions tr)).
    { intros X. apply Hi. assert (Y : In (mk id) (filter isk (additions tr))) by (apply filter_In; auto).
      rewrite <- K1 in Y. apply in_map_iff in Y as (j & Hj & Hin). apply mk_inj in Hj. subst; auto. }
    split.
    + rewrite additions_add. destruct (existsb _ _) eqn:E; [apply existsb_handle in E; tauto|].
      rewrite map_app, filter_app, K1. cbn [map filter]. rewrite isk_mk. auto.
    + intros i Hin. rewrite upd_length. apply in_app_or in Hin as [Hin|[<- |[]]]; auto.
    + intros i o H. rewrite nth_error_upd in H. destruct (Nat.eqb_spec id i) as [-> |Hne].
      * destruct (i <? length objs); [|discriminate]. injection H as <-. cbn. split; auto. intros _.
        apply in_or_app. right. left; auto.
      * rewrite (K3 _ _ H), in_app_iff. cbn. split; [auto|]. intros [|[|[]]]; auto. congruence.
    + intros i. rewrite issued_app, in_app_iff, issued_one, K4, upd_length. cbn. split; [|auto].
      intros [|[E|[]]]; auto. apply mk_inj in E. congruence.
Qed.
Lemma knam_register objs ids tr id objs' ids' e : knam objs ids tr -> register nm objs ids id = Ok (objs', ids') ->
  knam objs' ids' (tr ++ [e]).
Proof.
  intros [N1 N2] H. apply register_cases in H as (ob & Hob & Hd & [(Hi & -> & ->)|(Hi & -> & ->)]).
  - apply knam_quiet. split; auto.
  - assert (G : forall i o, nth_error (upd objs id (fst ob, true)) i = Some o ->
                exists o', nth_error objs i = Some o' /\ fst o' = fst o).
    { intros i o H. rewrite nth_error_upd in H. destruct (Nat.eqb_spec id i) as [-> |Hne].
      - destruct (i <? length objs); [|discriminate]. injection H as <-. exists ob. auto.
      - exists o. auto. }
    split.
    + intros i j oi oj Hin Hjn Ei Ej E.
      destruct (G _ _ Ei) as (oi' & Ei' & Fi). destruct (G _ _ Ej) as (oj' & Ej' & Fj).
      rewrite <- Fi, <- Fj in E.
      apply in_app_or in Hin as [Hin|[<- |[]]]; apply in_app_or in Hjn as [Hjn|[<- |[]]]; auto.
      * eauto.
      * rewrite Hob in Ej'. injection Ej' as <-. eauto.
      * rewrite Hob in Ei'. injection Ei' as <-. symmetry. eauto.
    + intros i o H. destruct (G _ _ H) as (o' & H' & F). rewrite <- F. apply created_app. auto.
Qed.
Lemma register_no_panic objs ids id tr : kstr objs ids tr -> id < length objs -> register nm objs ids id <> Panic.
Proof.
  intros K L H. unfold register in H.
  destruct (nth_error objs id) as [ob|] eqn:E; [|apply nth_error_None in E; lia].
  unfold get in H at 1. rewrite E in H. cbn [bind] in H.
  destruct (mexists _ ids) as [b|m|] eqn:Em; cbn [bind] in H; try discriminate.
  - destruct b; [discriminate|]. destruct (existsb _ _); [discriminate|]. unfold set in H.
    destruct (Nat.ltb_spec id (length objs)); [discriminate|lia].
  - clear H. assert (forall i, In i ids -> i < length objs) by (apply (k_lt _ _ _ K)). clear K.
    induction ids as [|j t IH]; [discriminate|]. cbn [mexists] in Em.
    destruct (Nat.eqb_spec j id); cbn [bind] in Em; [apply IH; auto; intros; apply H; right; auto|].
    destruct (nth_error objs j) as [oj|] eqn:Ej; [|apply nth_error_None in Ej; specialize (H j (or_introl eq_refl)); lia].
    unfold get in Em at 1. rewrite Ej in Em. cbn [bind] in Em.
    destruct (String.eqb _ _); [discriminate|]. apply IH; auto; intros; apply H; right; auto.
Qed.

(** Lookup. *)
Lemma names_ok objs ids tr : kstr objs ids tr -> exists ns, reg_names nm objs ids = Ok ns /\ length ns = length ids /\
  (forall i id, nth_error ids i = Some id -> exists ob, nth_error objs id = Some ob /\ nth_error ns i = Some (nm (fst ob))).
Proof.
  intros K. assert (H : forall i, In i ids -> i < length objs) by apply (k_lt _ _ _ K). clear K.
  induction ids as [|j t IH].
  - exists []. repeat split; auto. intros [|i] id; discriminate.
  - destruct IH as (ns & E & L & G); [intros; apply H; right; auto|].
    destruct (nth_error objs j) as [oj|] eqn:Ej; [|apply nth_error_None in Ej; specialize (H j (or_introl eq_refl)); lia].
    exists (nm (fst oj) :: ns). split; [|split].
    + unfold reg_names in *. cbn [mmap]. unfold get at 1. rewrite Ej. cbn [bind]. rewrite E. auto.
    + cbn; auto.
    + intros [|i] id Hi; cbn in Hi.
      * injection Hi as <-. exists oj. auto.
      * apply G in Hi. auto.
Qed.
Lemma find_cases objs ids tr name : kstr objs ids tr ->
  exists ns, reg_names nm objs ids = Ok ns /\
  match find_registered nm objs ids name with
  | Ok (Some id) => exists i, fuzzy_find name ns = [i] /\ nth_error ids i = Some id
  | Ok None => fuzzy_find name ns = []
  | Err _ => 2 <= length (fuzzy_find name ns)
  | Panic => False
  end.
Proof.
  intros K. destruct (names_ok _ _ _ K) as (ns & E & L & _). exists ns. split; auto.
  unfold find_registered. rewrite E. cbn [bind].
  destruct (fuzzy_find name ns) as [|i [|j l]] eqn:Ef; auto; [|cbn; lia].
  assert (Hi : i < length ns). { apply (fuzzy_find_lt name). rewrite Ef. left; auto. }
  destruct (nth_error ids i) as [id|] eqn:Ei; [|apply nth_error_None in Ei; lia].
  unfold get. rewrite Ei. cbn [bind]. eauto.
Qed.
Lemma find_issued objs ids tr name id : kstr objs ids tr -> find_registered nm objs ids name = Ok (Some id) ->
  In (mk id) (issued tr).
Proof.
  intros K H. destruct (find_cases _ _ _ name K) as (ns & _ & G). rewrite H in G. destruct G as (i & _ & Hi).
  apply (k_issued _ _ _ K), (k_lt _ _ _ K). eapply nth_error_In; eauto.
Qed.

(** Renaming keeps the structure. *)
Lemma kstr_rename objs ids tr f id objs' e : kstr objs ids tr -> rename f objs id = Ok objs' ->
  returned (snd e) = [mk id] -> added e = [] -> kstr objs' ids (tr ++ [e]).
Proof.
  intros K H He Ha. unfold rename in H. apply bind_ok in H as (ob & Hob & H). apply get_ok in Hob. apply set_ok in H as [L ->].
  assert (K' : kstr objs ids (tr ++ [e])).
  { apply kstr_quiet; auto. split; [rewrite He|rewrite Ha]; intros h []; [|contradiction].
    subst. intros _. apply (k_issued _ _ _ K); auto. }
  destruct K' as [K1 K2 K3 K4]. split; auto.
  - rewrite upd_length. auto.
  - intros i o H. rewrite nth_error_upd in H. destruct (Nat.eqb_spec id i) as [-> |Hne]; [|auto].
    destruct (i <? length objs); [|discriminate]. injection H as <-. cbn. auto.
  - intros i. rewrite upd_length. auto.
Qed.
End Kind.
Arguments kstr {A}. Arguments knam {A}.
