(** Time strings, arguments, numerals, name lookup, tags, slices. *)
From Verif Require Import Base M_Data M_Names M_Rng M_Build P_Resolve M_Script Spec_Script.
From Coq Require Import String Ascii Sorted.
Notation length := Datatypes.length.
Notation get := Base.get.

(** ** Digits *)
Lemma digit_val_char d : d < 10 -> digit_val (digit_char d) = Some (N.of_nat d).
Proof. intros H. do 10 (destruct d as [|d]; [reflexivity|]). lia. Qed.
Lemma digit_val_inv c v : digit_val c = Some v -> exists d, d < 10 /\ c = digit_char d /\ v = N.of_nat d.
Proof.
  unfold digit_val. destruct ((48 <=? N_of_ascii c)%N && (N_of_ascii c <=? 57)%N) eqn:E; [|discriminate].
  apply andb_true_iff in E as [E1 E2]. apply N.leb_le in E1, E2. intros H. injection H as <-.
  exists (N.to_nat (N_of_ascii c - 48)). split; [lia|split; [|lia]].
  unfold digit_char. replace (48 + N.to_nat (N_of_ascii c - 48)) with (N.to_nat (N_of_ascii c)) by lia.
  unfold ascii_of_nat. rewrite N2Nat.id, ascii_N_embedding. auto.
Qed.
Lemma unit_not_digit u m : In (u, m) units -> digit_val u = None /\ is_lower u = true /\ unit_seconds u = Some m /\ (1 <= m)%Z.
Proof. cbn. intros [H|[H|[H|[H|[H|[]]]]]]; injection H as <- <-; repeat split; lia. Qed.
Lemma unit_seconds_inv u m : unit_seconds u = Some m -> In (u, m) units.
Proof.
  unfold unit_seconds. intros H.
  repeat match type of H with context [Ascii.eqb ?a ?b] => destruct (Ascii.eqb_spec a b); [subst; injection H as <-; cbn; auto 10|] end.
  discriminate.
Qed.

Lemma fold_value ds : forall a, (0 <= a)%Z ->
  (a <= fold_left (fun a d => (10 * a + Z.of_nat d)%Z) ds a)%Z.
Proof.
  induction ds as [|d t IH]; intros a Ha; cbn [fold_left]; [lia|].
  specialize (IH (10 * a + Z.of_nat d)%Z). lia.
Qed.
Lemma digits_value_nonneg ds : (0 <= digits_value ds)%Z.
Proof. apply fold_value. lia. Qed.
Lemma value_app ds d : digits_value (ds ++ [d]) = (10 * digits_value ds + Z.of_nat d)%Z.
Proof. unfold digits_value. rewrite fold_left_app. reflexivity. Qed.
Lemma text_cons d ds : digits_text (d :: ds) = String (digit_char d) (digits_text ds).
Proof. reflexivity. Qed.

(** ** Time strings *)
Lemma push_digit_ok cur d : (0 <= cur)%Z -> (10 * cur + Z.of_nat d <= i32_max)%Z ->
  push_digit cur (N.of_nat d) = Some (10 * cur + Z.of_nat d)%Z.
Proof.
  intros H0 H. unfold push_digit, i32_min, i32_max in *.
  rewrite nat_N_Z.
  destruct (Z.leb_spec (-2147483648) (cur * 10)); [|lia]. destruct (Z.leb_spec (cur * 10) 2147483647); [|lia]. cbn [andb].
  destruct (Z.leb_spec (-2147483648) (cur * 10 + Z.of_nat d)); [|lia].
  destruct (Z.leb_spec (cur * 10 + Z.of_nat d) 2147483647); [|lia]. cbn [andb]. f_equal. lia.
Qed.
Lemma push_digit_inv cur d r : push_digit cur (N.of_nat d) = Some r -> r = (10 * cur + Z.of_nat d)%Z /\ (r <= i32_max)%Z.
Proof.
  unfold push_digit. destruct (_ && _); [|discriminate]. destruct ((i32_min <=? _)%Z && _) eqn:E; [|discriminate].
  intros H; injection H as <-. apply andb_true_iff in E as [_ E]. apply Z.leb_le in E. rewrite nat_N_Z in *. lia.
Qed.
Lemma time_digits pr total ds rest : Forall (fun d => d < 10) ds -> forall cur, (0 <= cur)%Z ->
  (fold_left (fun a d => (10 * a + Z.of_nat d)%Z) ds cur <= i32_max)%Z ->
  time_loop pr total cur (digits_text ds ++ rest) =
  time_loop pr total (fold_left (fun a d => (10 * a + Z.of_nat d)%Z) ds cur) rest.
Proof.
  induction 1 as [|d t Hd Ht IH]; intros cur H0 H; [reflexivity|].
  rewrite text_cons. cbn [fold_left] in *.
  change ((String (digit_char d) (digits_text t) ++ rest)%string) with (String (digit_char d) (digits_text t ++ rest)).
  cbn [time_loop]. rewrite (digit_val_char d Hd).
  assert (Hv := fold_value t (10 * cur + Z.of_nat d)%Z ltac:(lia)).
  rewrite push_digit_ok by lia. apply IH; lia.
Qed.
Lemma i32_wrap_in pr z : (i32_min <= z <= i32_max)%Z -> i32_wrap pr z = Ok z.
Proof.
  intros [H1 H2]. unfold i32_wrap. apply Z.leb_le in H1, H2. rewrite H1, H2. reflexivity.
Qed.

Lemma time_text_nonneg s z : time_text s z -> (0 <= z)%Z.
Proof.
  induction 1 as [|ds u m rest z Hn Hd Hu Hr IH]; [lia|].
  apply unit_not_digit in Hu. assert (Hv := digits_value_nonneg ds). nia.
Qed.
Lemma parse_time_text pr s z : time_text s z -> forall total, (0 <= total)%Z -> (total + z <= i32_max)%Z ->
  time_loop pr total 0 s = Ok (total + z)%Z.
Proof.
  induction 1 as [|ds u m rest z Hn Hd Hu Hr IH]; intros total H0 H.
  - cbn. f_equal. lia.
  - assert (Hz := time_text_nonneg _ _ Hr). assert (Hv := digits_value_nonneg ds).
    destruct (unit_not_digit _ _ Hu) as (U1 & U2 & U3 & U4).
    assert (digits_value ds <= digits_value ds * m)%Z by nia.
    rewrite time_digits; auto; [|lia|unfold digits_value in *; lia]. fold (digits_value ds).
    cbn [time_loop]. rewrite U1, U2, U3.
    rewrite i32_wrap_in by (unfold i32_min; lia). cbn [bind].
    rewrite i32_wrap_in by (unfold i32_min; lia). cbn [bind].
    rewrite IH by lia. f_equal. lia.
Qed.

(** What is accepted. *)
Lemma text_app a b : digits_text (a ++ b) = (digits_text a ++ digits_text b)%string.
Proof.
  unfold digits_text. rewrite map_app. induction a as [|x t IH]; cbn; [auto|]. rewrite IH. auto.
Qed.
Lemma app_assoc_s (a b c : string) : ((a ++ b) ++ c)%string = (a ++ b ++ c)%string.
Proof. induction a as [|x t IH]; cbn; [auto|]. rewrite IH. auto. Qed.
Lemma app_nil_s (a : string) : (a ++ "")%string = a.
Proof. induction a as [|x t IH]; cbn; [auto|]. rewrite IH. auto. Qed.
Lemma i32_wrap_debug z r : i32_wrap Debug z = Ok r -> r = z /\ (i32_min <= z <= i32_max)%Z.
Proof.
  unfold i32_wrap. destruct (_ && _) eqn:E; [|discriminate]. intros H; injection H as <-.
  apply andb_true_iff in E as [E1 E2]. apply Z.leb_le in E1, E2. auto.
Qed.
Lemma loop_loose_gen s : forall pre total z, Forall (fun d => d < 10) pre ->
  time_loop Debug total (digits_value pre) s = Ok z ->
  exists y, loose_text (digits_text pre ++ s) y /\ z = (total + y)%Z.
Proof.
  induction s as [|c t IH]; intros pre total z Hp H; cbn [time_loop] in H.
  - injection H as <-. exists 0%Z. rewrite app_nil_s. split; [constructor; auto|lia].
  - destruct (digit_val c) as [v|] eqn:Ed.
    + destruct (digit_val_inv _ _ Ed) as (d & Hd & -> & ->).
      destruct (push_digit _ _) as [cur|] eqn:Ec; [|discriminate].
      apply push_digit_inv in Ec as [Ec _]. rewrite <- value_app in Ec. subst cur.
      apply IH in H as (y & Hy & ->); [|apply Forall_app; auto].
      exists y. split; auto. rewrite text_app, app_assoc_s in Hy. exact Hy.
    + destruct (is_lower c) eqn:El; [|discriminate].
      destruct (unit_seconds c) as [m|] eqn:Eu; [|discriminate].
      apply bind_ok in H as (x & Hx & H). apply bind_ok in H as (y & Hy & H).
      apply i32_wrap_debug in Hx as [-> _]. apply i32_wrap_debug in Hy as [-> _].
      apply (IH []) in H as (w & Hw & ->); [|constructor].
      exists (digits_value pre * m + w)%Z. split; [|lia].
      apply lt_more; auto. apply unit_seconds_inv; auto.
Qed.
Lemma parse_time_loose s z : parse_time Debug s = Ok z -> loose_text s z.
Proof. intros H. apply (loop_loose_gen s [] 0%Z) in H as (y & Hy & ->); [|constructor]. exact Hy. Qed.

(** In release builds the profile only matters when something overflows. *)
Lemma time_loop_profiles s : forall total cur z, time_loop Debug total cur s = Ok z -> time_loop Release total cur s = Ok z.
Proof.
  induction s as [|c t IH]; intros total cur z H; cbn [time_loop] in *; auto.
  destruct (digit_val c); [destruct (push_digit _ _); auto|].
  destruct (is_lower c); auto. destruct (unit_seconds c) as [m|]; auto.
  apply bind_ok in H as (x & Hx & H). apply bind_ok in H as (y & Hy & H).
  apply i32_wrap_debug in Hx as [-> Hx]. apply i32_wrap_debug in Hy as [-> Hy].
  rewrite (i32_wrap_in Release _ Hx). cbn [bind]. rewrite (i32_wrap_in Release _ Hy). cbn [bind]. auto.
Qed.

(** ** Numerals *)
Lemma parse_digits_text lim ds : Forall (fun d => d < 10) ds -> forall acc,
  (fold_left (fun a d => (10 * a + Z.of_nat d)%Z) ds (Z.of_N acc) <= Z.of_N lim)%Z ->
  exists n, parse_digits lim acc (digits_text ds) = Some n /\ Z.of_N n = fold_left (fun a d => (10 * a + Z.of_nat d)%Z) ds (Z.of_N acc).
Proof.
  induction 1 as [|d t Hd Ht IH]; intros acc H.
  - exists acc. auto.
  - rewrite text_cons. cbn [parse_digits fold_left] in *. rewrite (digit_val_char d Hd).
    assert (E : (10 * Z.of_N acc + Z.of_nat d)%Z = Z.of_N (acc * 10 + N.of_nat d)) by lia.
    rewrite E in *. assert (Hv := fold_value t (Z.of_N (acc * 10 + N.of_nat d)) ltac:(lia)).
    destruct (N.leb_spec (acc * 10 + N.of_nat d) lim); [|lia]. apply IH; auto.
Qed.
Lemma parse_digits_inv lim s : forall acc n, parse_digits lim acc s = Some n ->
  exists ds, Forall (fun d => d < 10) ds /\ s = digits_text ds /\ Z.of_N n = fold_left (fun a d => (10 * a + Z.of_nat d)%Z) ds (Z.of_N acc).
Proof.
  induction s as [|c t IH]; intros acc n H; cbn [parse_digits] in H.
  - injection H as <-. exists []. repeat split; constructor.
  - destruct (digit_val c) as [v|] eqn:Ed; [|discriminate].
    destruct (digit_val_inv _ _ Ed) as (d & Hd & -> & ->).
    destruct (N.leb_spec (acc * 10 + N.of_nat d) lim); [|discriminate].
    apply IH in H as (ds & H1 & -> & H2). exists (d :: ds). repeat split; auto.
    rewrite H2. cbn [fold_left]. f_equal. lia.
Qed.
Lemma parse_digits_le' lim s acc n : (acc <= lim)%N -> parse_digits lim acc s = Some n -> (n <= lim)%N.
Proof. apply parse_digits_le. Qed.
Lemma digit_char_not_plus d : d < 10 -> digit_char d <> "+"%char /\ digit_char d <> "-"%char.
Proof. intros H. do 10 (destruct d as [|d]; [split; discriminate|]). lia. Qed.

Lemma parse_unsigned_unfold lim c t : parse_unsigned lim (String c t) =
  if Ascii.eqb c "+" then match t with EmptyString => None | _ => parse_digits lim 0 t end else parse_digits lim 0 (String c t).
Proof.
  unfold parse_unsigned. destruct (Ascii.eqb_spec c "+") as [->|Hne]; [reflexivity|].
  destruct c as [b0 b1 b2 b3 b4 b5 b6 b7].
  destruct b0, b1, b2, b3, b4, b5, b6, b7; try reflexivity; exfalso; apply Hne; reflexivity.
Qed.
Lemma parse_unsigned_ok lim s n : parse_unsigned lim s = Some n <-> numeral lim s n.
Proof.
  split.
  - destruct s as [|c t]; [discriminate|]. rewrite parse_unsigned_unfold.
    destruct (Ascii.eqb_spec c "+") as [->|Hne].
    + destruct t as [|c' t']; [discriminate|]. intros H.
      assert (Hl := parse_digits_le _ _ 0%N _ ltac:(lia) H).
      apply parse_digits_inv in H as (ds & H1 & H2 & H3). exists ds. repeat split; auto.
      * intros ->. discriminate.
      * right. rewrite H2. auto.
    + intros H. assert (Hl := parse_digits_le _ _ 0%N _ ltac:(lia) H).
      apply parse_digits_inv in H as (ds & H1 & H2 & H3). exists ds. repeat split; auto.
      intros ->. discriminate.
  - intros (ds & Hn & Hd & Hv & Hl & Hs).
    assert (G : parse_digits lim 0 (digits_text ds) = Some n).
    { destruct (parse_digits_text lim ds Hd 0%N) as (n' & Hp & Hv').
      - change (Z.of_N 0) with 0%Z. fold (digits_value ds). lia.
      - rewrite Hp. f_equal. apply N2Z.inj. rewrite Hv'. symmetry. exact Hv. }
    destruct ds as [|d t]; [congruence|]. rewrite text_cons in *.
    destruct Hs as [-> | ->]; rewrite parse_unsigned_unfold.
    + destruct (Ascii.eqb_spec (digit_char d) "+") as [E|_]; [|exact G].
      inversion Hd; subst. destruct (digit_char_not_plus d) as [X _]; auto. congruence.
    + cbn [Ascii.eqb Bool.eqb]. exact G.
Qed.
Lemma parse_i64_unfold c t : parse_i64 (String c t) =
  if Ascii.eqb c "-" then match t with EmptyString => None
                          | _ => match parse_digits 9223372036854775808 0 t with Some n => Some (- Z.of_N n)%Z | None => None end end
  else match parse_unsigned 9223372036854775807 (String c t) with Some n => Some (Z.of_N n) | None => None end.
Proof.
  unfold parse_i64. destruct (Ascii.eqb_spec c "-") as [->|Hne]; [reflexivity|].
  destruct c as [b0 b1 b2 b3 b4 b5 b6 b7].
  destruct b0, b1, b2, b3, b4, b5, b6, b7; try reflexivity; exfalso; apply Hne; reflexivity.
Qed.
Lemma parse_i64_ok s z : parse_i64 s = Some z <-> signed_numeral s z.
Proof.
  destruct s as [|c t].
  - split; [discriminate|]. intros [(n & (ds & Hn & _ & _ & _ & H) & _) | (ds & Hn & _ & H & _)]; [|discriminate].
    destruct ds; [congruence|]. destruct H; discriminate.
  - rewrite parse_i64_unfold. destruct (Ascii.eqb_spec c "-") as [->|Hne].
    + split.
      * destruct t as [|c' t']; [discriminate|]. destruct (parse_digits _ _ _) as [n|] eqn:E; [|discriminate].
        intros H. injection H as <-. right.
        assert (Hl := parse_digits_le _ _ 0%N _ ltac:(lia) E).
        apply parse_digits_inv in E as (ds & H1 & H2 & H3). change (Z.of_N 0) with 0%Z in H3. fold (digits_value ds) in H3.
        exists ds. repeat split; auto; try lia; [intros ->; discriminate|rewrite H2; auto].
      * intros [(n & (ds & Hn & Hd & _ & _ & H) & _) | (ds & Hn & Hd & H & -> & Hl)].
        -- destruct ds as [|d ds]; [congruence|]. rewrite text_cons in H. inversion Hd; subst.
           destruct (digit_char_not_plus d) as [_ X]; auto. destruct H as [H|H]; injection H as H H'; congruence.
        -- injection H as ->. destruct ds as [|d ds]; [congruence|].
           destruct (parse_digits_text 9223372036854775808 (d :: ds) Hd 0%N) as (n' & Hp & Hv').
           { change (Z.of_N 0) with 0%Z. fold (digits_value (d :: ds)). lia. }
           rewrite Hp. rewrite text_cons. f_equal. rewrite Hv'. reflexivity.
    + destruct (parse_unsigned 9223372036854775807 (String c t)) as [n|] eqn:E.
      * assert (E' := proj1 (parse_unsigned_ok _ _ _) E). split; intros H.
        -- injection H as <-. left. exists n. auto.
        -- destruct H as [(n' & H & ->) | (ds & Hn & Hd & H & _)]; [|injection H as H _; congruence].
           apply parse_unsigned_ok in H. congruence.
      * split; [discriminate|]. intros [(n' & H & ->) | (ds & Hn & Hd & H & _)]; [|injection H as H _; congruence].
        apply parse_unsigned_ok in H. congruence.
Qed.

(** ** Arguments *)
Lemma is_flag_true a b x : is_flag a b x = true -> In x [a; b].
Proof.
  unfold is_flag. intros H. apply orb_true_iff in H as [H|H]; apply String.eqb_eq in H; subst; cbn; auto.
Qed.
Lemma eqb_true_in x a : String.eqb x a = true -> In x [a].
Proof. intros H. apply String.eqb_eq in H. subst. cbn; auto. Qed.

Section Args.
Context {F : Type} (pr : profile) (pf : string -> option F).
Let tm (v : string) (x : Z) : Prop := parse_time pr v = Ok x.
Let fl (v : string) (x : F) : Prop := pf v = Some x.
Lemma arg_loop_sound n : forall args (o o' : settings F), length args <= n ->
  arg_loop pr pf o args = Ok o' -> applies fl tm (numeral u32_max) o args o'.
Proof.
  induction n as [|n IH]; intros [|a rest] o o' Hn H; cbn [Datatypes.length] in Hn; try lia.
  1,2: cbn in H; injection H as <-; constructor.
  cbn [arg_loop] in H. destruct o as [i out any e to cs nc ns th mx gr].
  destruct (is_flag "-i" "--input" a) eqn:E1; [|clear E1].
  { destruct rest as [|v t]; [discriminate|]. cbn [Datatypes.length] in Hn. apply IH in H; [|lia].
    eapply ap_input; [apply is_flag_true; eauto|reflexivity|exact H]. }
  destruct (is_flag "-o" "--output" a) eqn:E1; [|clear E1].
  { destruct rest as [|v t]; [discriminate|]. cbn [Datatypes.length] in Hn. apply IH in H; [|lia].
    eapply ap_output; [apply is_flag_true; eauto|reflexivity|exact H]. }
  destruct (is_flag "-a" "--any" a) eqn:E1; [|clear E1].
  { apply IH in H; [|lia]. eapply ap_any; [apply is_flag_true; eauto|reflexivity|exact H]. }
  destruct (is_flag "-p" "--pref-exp" a) eqn:E1; [|clear E1].
  { destruct rest as [|v t]; [discriminate|]. cbn [Datatypes.length] in Hn.
    destruct (pf v) as [x|] eqn:Ev; [|discriminate]. apply IH in H; [|lia].
    eapply ap_exp; [apply is_flag_true; eauto|exact Ev|reflexivity|exact H]. }
  destruct (is_flag "-t" "--timeout" a) eqn:E1; [|clear E1].
  { destruct rest as [|v t]; [discriminate|]. cbn [Datatypes.length] in Hn.
    apply bind_ok in H as (x & Ev & H). apply IH in H; [|lia].
    eapply ap_timeout; [apply is_flag_true; eauto|exact Ev|reflexivity|exact H]. }
  destruct (String.eqb a "--cs-timeout") eqn:E1; [|clear E1].
  { destruct rest as [|v t]; [discriminate|]. cbn [Datatypes.length] in Hn.
    apply bind_ok in H as (x & Ev & H). apply IH in H; [|lia].
    eapply ap_cs_timeout; [apply eqb_true_in; eauto|exact Ev|reflexivity|exact H]. }
  destruct (String.eqb a "--no-cs") eqn:E1; [|clear E1].
  { apply IH in H; [|lia]. eapply ap_no_cs; [apply eqb_true_in; eauto|reflexivity|exact H]. }
  destruct (String.eqb a "--no-cs-simp") eqn:E1; [|clear E1].
  { apply IH in H; [|lia]. eapply ap_no_cs_simp; [apply eqb_true_in; eauto|reflexivity|exact H]. }
  destruct (is_flag "-j" "--threads" a) eqn:E1; [|clear E1].
  { destruct rest as [|v t]; [discriminate|]. cbn [Datatypes.length] in Hn.
    destruct (parse_u32 v) as [x|] eqn:Ev; [|discriminate]. apply IH in H; [|lia].
    apply parse_unsigned_ok in Ev.
    eapply ap_threads; [apply is_flag_true; eauto|exact Ev|reflexivity|exact H]. }
  destruct (is_flag "-n" "--max-neighbors" a) eqn:E1; [|clear E1].
  { destruct rest as [|v t]; [discriminate|]. cbn [Datatypes.length] in Hn.
    destruct (parse_u32 v) as [x|] eqn:Ev; [|discriminate]. apply IH in H; [|lia].
    apply parse_unsigned_ok in Ev.
    eapply ap_neighbors; [apply is_flag_true; eauto|exact Ev|reflexivity|exact H]. }
  destruct (is_flag "-g" "--greedy" a) eqn:E1; [|clear E1].
  { apply IH in H; [|lia]. eapply ap_greedy; [apply is_flag_true; eauto|reflexivity|exact H]. }
  destruct (is_flag "-h" "--help" a || String.eqb a "--version") eqn:E1; [|discriminate].
  apply IH in H; [|lia]. eapply ap_ignored; [|exact H].
  apply orb_true_iff in E1 as [E1|E1].
  - apply is_flag_true in E1. destruct E1 as [E1|[E1|[]]]; subst; cbn; auto.
  - apply String.eqb_eq in E1. subst. cbn; auto.
Qed.
Lemma arg_loop_complete args (o o' : settings F) :
  applies fl tm (numeral u32_max) o args o' -> arg_loop pr pf o args = Ok o'.
Proof.
  induction 1; subst; try reflexivity;
    repeat match goal with
    | H : In _ [] |- _ => destruct H
    | H : In _ (_ :: _) |- _ => destruct H as [<- | H]
    | H : numeral _ _ _ |- _ => apply parse_unsigned_ok in H
    | H : tm _ _ |- _ => unfold tm in H
    | H : fl _ _ |- _ => unfold fl in H
    end; cbn -[parse_time parse_unsigned];
    repeat match goal with
    | H : ?x = Some _ |- context [?x] => rewrite H
    | H : parse_unsigned u32_max ?v = Some _ |- context [parse_u32 ?v] => unfold parse_u32; rewrite H
    | H : parse_time pr ?v = Ok _ |- _ => rewrite H; clear H
    end; cbn [bind]; auto.
Qed.
End Args.

Lemma all_strings_spec args ss : all_strings args = Some ss <-> args = map DStr ss.
Proof.
  revert ss. induction args as [|d t IH]; intros ss; cbn [all_strings].
  - split; intros H; [injection H as <-; auto|destruct ss; [auto|discriminate]].
  - destruct d as [s|z|]; try (split; [discriminate|intros H; destruct ss; discriminate]).
    destruct (all_strings t) as [r|] eqn:E.
    + destruct (IH r) as [IH1 _]. rewrite (IH1 eq_refl). split; intros H.
      * injection H as <-. auto.
      * destruct ss as [|s' ss']; [discriminate|]. cbn in H. injection H as -> H.
        assert (r = ss'). { clear -H. revert ss' H. induction r as [|a t IH]; intros [|b u] H; try discriminate; auto.
          cbn in H. injection H as -> H. f_equal; auto. } congruence.
    + split; [discriminate|]. intros H. destruct ss as [|s' ss']; [discriminate|]. cbn in H. injection H as _ H.
      apply IH in H. discriminate.
Qed.
