(** Lookup in a run; time strings in release builds; readers used repeatedly. *)
From Verif Require Import Base M_Data M_Names M_Rng M_Build Spec Spec_Input P_Compile P_Resolve P_Input M_Script Spec_Script P_Script1 P_Names P_Script2 P_Script3 P_Script4 P_Script5 P_Script6.
From Coq Require Import String Ascii Sorted.
Notation length := Datatypes.length.
Notation get := Base.get.

(** ** Time strings, release *)
Lemma i32_wrap_release z r : i32_wrap Release z = Ok r -> exists k, r = (z + k * 4294967296)%Z /\ (i32_min <= r <= i32_max)%Z.
Proof.
  unfold i32_wrap. destruct (_ && _) eqn:E.
  - intros H; injection H as <-. apply andb_true_iff in E as [E1 E2]. apply Z.leb_le in E1, E2. exists 0%Z. lia.
  - intros H; injection H as <-. exists (- ((z + 2147483648) / 4294967296))%Z. unfold i32_min, i32_max.
    assert (Hd := Z.div_mod (z + 2147483648) 4294967296 ltac:(lia)). assert (Hb := Z.mod_pos_bound (z + 2147483648) 4294967296 ltac:(lia)). lia.
Qed.
Lemma loop_loose_release s : forall pre total z, Forall (fun d => d < 10) pre ->
  time_loop Release total (digits_value pre) s = Ok z ->
  exists y k, loose_text (digits_text pre ++ s) y /\ z = (total + y + k * 4294967296)%Z.
Proof.
  induction s as [|c t IH]; intros pre total z Hp H; cbn [time_loop] in H.
  - injection H as <-. exists 0%Z, 0%Z. rewrite app_nil_s. split; [constructor; auto|lia].
  - destruct (digit_val c) as [v|] eqn:Ed.
    + destruct (digit_val_inv _ _ Ed) as (d & Hd & -> & ->).
      destruct (push_digit _ _) as [cur|] eqn:Ec; [|discriminate].
      apply push_digit_inv in Ec as [-> _]. rewrite <- value_app in H.
      apply IH in H as (y & k & Hl & ->); [|apply Forall_app; auto]. exists y, k. split; auto.
      rewrite text_app, app_assoc_s in Hl. exact Hl.
    + destruct (is_lower c); [|discriminate]. destruct (unit_seconds c) as [m|] eqn:Eu; [|discriminate].
      apply bind_ok in H as (x & Hx & H). apply bind_ok in H as (y & Hy & H).
      apply i32_wrap_release in Hx as (k1 & -> & _). apply i32_wrap_release in Hy as (k2 & -> & _).
      change 0%Z with (digits_value []) in H at 1. apply IH in H as (y & k & Hl & ->); [|constructor].
      exists (digits_value pre * m + y)%Z, (k1 + k2 + k)%Z. split; [|lia].
      constructor; auto. apply unit_seconds_inv; auto.
Qed.
Lemma time_loop_range pr s : forall total cur z, (i32_min <= total <= i32_max)%Z -> time_loop pr total cur s = Ok z -> (i32_min <= z <= i32_max)%Z.
Proof.
  induction s as [|c t IH]; intros total cur z Ht H; cbn [time_loop] in H; [injection H as <-; auto|].
  destruct (digit_val c) as [v|]; [destruct (push_digit _ _); [eauto|discriminate]|].
  destruct (is_lower c); [|discriminate]. destruct (unit_seconds c) as [m|]; [|discriminate].
  apply bind_ok in H as (x & Hx & H). apply bind_ok in H as (y & Hy & H). apply IH in H; auto.
  destruct pr; [apply i32_wrap_debug in Hy as [-> ?]; auto|apply i32_wrap_release in Hy as (k & _ & ?); auto].
Qed.
Lemma parse_time_loose_any pr s z : parse_time pr s = Ok z ->
  exists y k, loose_text s y /\ z = (y + k * 4294967296)%Z /\ (i32_min <= z <= i32_max)%Z /\ (pr = Debug -> k = 0%Z).
Proof.
  intros H. assert (R : (i32_min <= z <= i32_max)%Z) by (eapply time_loop_range; [|exact H]; unfold i32_min, i32_max; lia).
  destruct pr.
  - apply parse_time_loose in H. exists z, 0%Z. repeat split; auto; lia.
  - apply (loop_loose_release s [] 0 z) in H as (y & k & Hl & ->); [|constructor]. exists y, k. repeat split; auto; try lia. discriminate.
Qed.

(** ** Preferences *)
Lemma prefs_accepted ps ns : Forall2 pref_value ps ns -> Forall (fun n => (n <= u32_max)%N) ns -> array_to_u32 ps = Ok ns.
Proof.
  intros H. unfold array_to_u32. induction H as [|x n ps ns Hx H IH]; intros Hs; cbn [mmap]; [auto|]. inversion Hs; subst.
  assert (Hz : z_to_u32 (Z.of_N n) = Ok n).
  { unfold z_to_u32, u32_max in *. destruct (Z.leb_spec 0 (Z.of_N n)); [|lia]. destruct (Z.leb_spec (Z.of_N n) 4294967295); [|lia].
    cbn. rewrite N2Z.id. auto. }
  assert (E : (match x with DStr s => parse_string_uint s | DInt z => z_to_u32 z | DOther => Err "Unsupported chooser preference value." end) = Ok n).
  { destruct x; cbn in Hx; [|subst; auto|tauto]. unfold parse_string_uint. apply parse_i64_ok in Hx. rewrite Hx. auto. }
  rewrite E. cbn [bind]. rewrite IH; auto.
Qed.

(** ** Lookup *)
Section Run.
Context {F : Type} (pr : profile) (pf : string -> option F).
Lemma lookup_kind {A} (nm : A -> string) mk isk objs ids tr name (Hi : forall i : nat, isk (mk i) = true) (Hj : forall i j, mk i = mk j -> i = j) :
  @kstr A mk isk objs ids tr -> knam nm mk objs ids tr ->
  exists ns l, named tr (filter isk (additions tr)) ns /\ NoDup ns /\ best_match ns (levels name) l /\
    match l with
    | [] => find_registered nm objs ids name = Ok None
    | [i] => exists id, nth_error (filter isk (additions tr)) i = Some (mk id) /\ find_registered nm objs ids name = Ok (Some id)
    | _ => exists m, find_registered nm objs ids name = Err m
    end.
Proof.
  intros K N. destruct (picked_spec nm _ _ _ _ _ K) as (l & Hl & _). destruct (picked_named _ _ _ _ _ _ _ K N Hl) as [Hn Hd].
  exists (map nm l), (fuzzy_find name (map nm l)). repeat split; auto using fuzzy_best.
  eapply find_lookup; eauto using fuzzy_best.
Qed.
Lemma exec_lookup o xs tr w x r w' n : exec_all pr pf (mkWorld rs_empty o) xs = (tr, w) -> proper_trace tr -> no_renames xs ->
  asked_name x = Some n -> exec pr pf w x = (r, w') ->
  exists ns l, named tr (filter (kind_of x) (additions tr)) ns /\ NoDup ns /\ best_match ns (levels n) l /\
    (forall h, r = Ok (Some h) ->
       match l with
       | [] => kind_of x h = true /\ ~ In h (issued tr)
       | [i] => nth_error (filter (kind_of x) (additions tr)) i = Some h
       | _ => False
       end) /\
    (fair_args x -> match l with [] | [_] => exists h, r = Ok (Some h) | _ => exists m, r = Err m end).
Proof.
  intros H HP HN HA HE. assert (SI := run_sinv _ _ _ _ _ _ H HP). assert (NI := run_ninv _ _ _ _ _ _ H HP HN).
  destruct SI as [S1 S2 S3], NI as [N1 N2 N3].
  destruct x as [m|m ts|m ps|h|h m|l rl rt|args]; try discriminate; cbn in HA; injection HA as ->; cbn [exec kind_of] in *.
  - destruct (lookup_kind _ _ _ _ _ _ n (fun _ => eq_refl) slot_inj S1 N1) as (ns & l & Hn & Hd & Hb & Hl).
    exists ns, l. repeat split; auto.
    + intros h ->. apply keep_ok in HE as [(g & st & HE & E & ->)|[(q & HE & E & ->)|(HE & E & ->)]]; try discriminate.
      injection E as <-. unfold do_slot in HE. apply bind_ok in HE as (found & Hf & HE).
      destruct l as [|i [|j t]].
      * rewrite Hl in Hf. injection Hf as <-. injection HE as <- <-. split; auto. intros Hin. apply (k_issued _ _ _ _ _ S1) in Hin. lia.
      * destruct Hl as (id & Hi & Hl). rewrite Hl in Hf. injection Hf as <-. injection HE as <- <-. auto.
      * destruct Hl as (q & Hl). congruence.
    + intros _. unfold do_slot in HE. destruct l as [|i [|j t]].
      * rewrite Hl in HE. cbn [bind keep] in HE. injection HE as <- _. eauto.
      * destruct Hl as (id & Hi & Hl). rewrite Hl in HE. cbn [bind keep] in HE. injection HE as <- _. eauto.
      * destruct Hl as (q & Hl). rewrite Hl in HE. cbn [bind keep] in HE. injection HE as <- _. eauto.
  - destruct (lookup_kind _ _ _ _ _ _ n (fun _ => eq_refl) choice_inj S2 N2) as (ns & l & Hn & Hd & Hb & Hl).
    exists ns, l. repeat split; auto.
    + intros h ->. apply keep_ok in HE as [(g & st & HE & E & ->)|[(q & HE & E & ->)|(HE & E & ->)]]; try discriminate.
      injection E as <-. apply bind_ok in HE as (tags & _ & HE). unfold do_choice in HE. apply bind_ok in HE as (found & Hf & HE).
      destruct l as [|i [|j t]].
      * rewrite Hl in Hf. injection Hf as <-. apply bind_ok in HE as (p & _ & HE). injection HE as <- <-.
        split; auto. intros Hin. apply (k_issued _ _ _ _ _ S2) in Hin. lia.
      * destruct Hl as (id & Hi & Hl). rewrite Hl in Hf. injection Hf as <-. injection HE as <- <-. auto.
      * destruct Hl as (q & Hl). congruence.
    + cbn [fair_args]. intros HF. destruct (tags_accepted ts (mkProto n 1 1 1 false) HF) as (tags & p & Ht & Hp).
      rewrite Ht in HE. cbn [bind] in HE. unfold do_choice in HE. destruct l as [|i [|j t]].
      * rewrite Hl in HE. cbn [bind] in HE. unfold new_choice in HE. rewrite Hp in HE. cbn [bind keep] in HE. injection HE as <- _. eauto.
      * destruct Hl as (id & Hi & Hl). rewrite Hl in HE. cbn [bind keep] in HE. injection HE as <- _. eauto.
      * destruct Hl as (q & Hl). rewrite Hl in HE. cbn [bind keep] in HE. injection HE as <- _. eauto.
  - destruct (lookup_kind _ _ _ _ _ _ n (fun _ => eq_refl) chooser_inj S3 N3) as (ns & l & Hn & Hd & Hb & Hl).
    exists ns, l. repeat split; auto.
    + intros h ->. apply keep_ok in HE as [(g & st & HE & E & ->)|[(q & HE & E & ->)|(HE & E & ->)]]; try discriminate.
      injection E as <-. apply bind_ok in HE as (prefs & _ & HE). unfold do_chooser in HE. apply bind_ok in HE as (found & Hf & HE).
      destruct l as [|i [|j t]].
      * rewrite Hl in Hf. injection Hf as <-. injection HE as <- <-.
        split; auto. intros Hin. apply (k_issued _ _ _ _ _ S3) in Hin. lia.
      * destruct Hl as (id & Hi & Hl). rewrite Hl in Hf. injection Hf as <-. injection HE as <- <-. auto.
      * destruct Hl as (q & Hl). congruence.
    + cbn [fair_args]. intros (ns' & HF1 & HF2). rewrite (prefs_accepted _ _ HF1 HF2) in HE.
      cbn [bind] in HE. unfold do_chooser in HE. destruct l as [|i [|j t]].
      * rewrite Hl in HE. cbn [bind keep] in HE. injection HE as <- _. eauto.
      * destruct Hl as (id & Hi & Hl). rewrite Hl in HE. cbn [bind keep] in HE. injection HE as <- _. eauto.
      * destruct Hl as (q & Hl). rewrite Hl in HE. cbn [bind keep] in HE. injection HE as <- _. eauto.
Qed.

(** An exact match wins. *)
Lemma exact_best ns n i : NoDup ns -> nth_error ns i = Some n -> forall l, best_match ns (levels n) l -> l = [i].
Proof.
  intros ND Hi l Hb. apply (best_unique ns (levels n)); auto. unfold levels. apply bm_here; [|discriminate].
  split; [repeat constructor|]. intros j. split.
  - intros [<- |[]]. exists n. auto.
  - intros (v & Hj & ->). left. apply (proj1 (NoDup_nth_error ns) ND); [|congruence].
    apply nth_error_Some. congruence.
Qed.

(** ** Independence of earlier reads *)
Lemma arg_loop_indep n : forall args (o o' : settings F), length args <= n ->
  match arg_loop pr pf o args, arg_loop pr pf o' args with
  | Ok _, Ok _ | Panic, Panic => True
  | Err a, Err b => a = b
  | _, _ => False
  end.
Proof.
  induction n as [|n IH]; intros [|a rest] o o' Hn; cbn [Datatypes.length] in Hn; try lia; cbn [arg_loop]; auto.
  repeat match goal with
  | |- context [if ?b then _ else _] => destruct b
  end; auto;
  try (destruct rest as [|v rest']; [auto|]; cbn [Datatypes.length] in Hn);
  try (apply IH; cbn [Datatypes.length]; lia);
  try (destruct (pf v); [apply IH; lia|auto]);
  try (destruct (parse_u32 v); [apply IH; lia|auto]);
  try (destruct (parse_time pr v); cbn [bind]; [apply IH; lia|auto..]).
Qed.
Lemma set_arguments_indep args (o o' : settings F) : fst (set_arguments pr pf o args) = fst (set_arguments pr pf o' args).
Proof.
  unfold set_arguments. destruct (all_strings args) as [ss|]; auto.
  pose proof (arg_loop_indep (length ss) ss o o' ltac:(lia)) as G.
  destruct (arg_loop pr pf o ss), (arg_loop pr pf o' ss); cbn; try tauto. congruence.
Qed.
Lemma exec_indep st (o o' : settings F) x :
  fst (exec pr pf (mkWorld st o) x) = fst (exec pr pf (mkWorld st o') x) /\
  w_state (snd (exec pr pf (mkWorld st o) x)) = w_state (snd (exec pr pf (mkWorld st o') x)).
Proof.
  assert (K : forall r : outcome (handle * rstate), fst (keep (mkWorld st o) r) = fst (keep (mkWorld st o') r) /\
     w_state (snd (keep (mkWorld st o) r)) = w_state (snd (keep (mkWorld st o') r))).
  { intros [[h s]|m|]; cbn; auto. }
  destruct x as [n|n ts|n ps|h|h n|l rl rt|args]; cbn [exec w_state]; try apply K.
  - destruct (do_constrain _ _ _ _); cbn; auto.
  - cbn [w_opts]. assert (G := set_arguments_indep args o o').
    destruct (set_arguments pr pf o args) as [[u|m|] o1], (set_arguments pr pf o' args) as [[u'|m'|] o2]; cbn in *; try (split; congruence).
Qed.
Lemma exec_all_indep xs : forall st (o o' : settings F),
  fst (exec_all pr pf (mkWorld st o) xs) = fst (exec_all pr pf (mkWorld st o') xs) /\
  w_state (snd (exec_all pr pf (mkWorld st o) xs)) = w_state (snd (exec_all pr pf (mkWorld st o') xs)).
Proof.
  induction xs as [|x xs IH]; intros st o o'; cbn [exec_all]; auto.
  destruct (exec_indep st o o' x) as [E1 E2].
  destruct (exec pr pf (mkWorld st o) x) as [r w1], (exec pr pf (mkWorld st o') x) as [r' w1']. cbn in E1, E2. subst r'.
  destruct w1 as [s1 o1], w1' as [s1' o1']. cbn in E2. subst s1'. destruct (IH s1 o1 o1') as [F1 F2].
  destruct (exec_all pr pf (mkWorld s1 o1) xs), (exec_all pr pf (mkWorld s1 o1') xs). cbn in *. subst. auto.
Qed.
Lemma read_indep (w w' : world F) xs fail : fst (read_with pr pf w xs fail) = fst (read_with pr pf w' xs fail).
Proof.
  unfold read_with. destruct (exec_all_indep xs rs_empty (w_opts w) (w_opts w')) as [E1 E2].
  destruct (exec_all pr pf _ xs) as [t1 w1], (exec_all pr pf (mkWorld rs_empty (w_opts w')) xs) as [t2 w2]. cbn in *. subst t2. rewrite E2.
  destruct (existsb panicked t1); auto.
Qed.

(** The options after a run: the successful argument lists, in order. *)
Lemma exec_opts (w : world F) x r w' : exec pr pf w x = (r, w') ->
  match x, r with
  | OpArgs args, Ok _ => exists ss, all_strings args = Some ss /\ arg_loop pr pf (w_opts w) ss = Ok (w_opts w')
  | _, _ => w_opts w' = w_opts w
  end.
Proof.
  intros H. assert (K : forall (q : outcome (handle * rstate)), keep w q = (r, w') -> w_opts w' = w_opts w).
  { intros [[h s]|m|] E; cbn in E; injection E as <- <-; auto. }
  destruct x as [n|n ts|n ps|h|h n|l rl rt|args]; cbn [exec] in H; try (apply K in H; destruct r; auto; fail).
  - destruct (do_constrain _ _ _ _); injection H as <- <-; auto.
  - unfold set_arguments in H. destruct (all_strings args) as [ss|]; [|injection H as <- <-; auto].
    destruct (arg_loop pr pf (w_opts w) ss) eqn:E; injection H as <- <-; eauto.
Qed.
End Run.
