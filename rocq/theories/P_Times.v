(** Lemmas for the times: C22, C23, C58, C96. *)
From Verif Require Import Base M_Data.
From Verif Require Import M_Names M_Rng M_Script Spec_Script P_Script1 P_Script7 Spec_Times.
From Coq Require Import String Ascii.
Notation length := Datatypes.length.
Notation get := Base.get.
Open Scope string_scope.
Open Scope list_scope.

Lemma unit_pos u m : unit_seconds u = Some m -> (0 < m)%Z.
Proof. unfold unit_seconds. repeat (destruct (Ascii.eqb _ _); [intros H; injection H as <-; lia|]). discriminate. Qed.
Lemma wrap_panic pr x : i32_wrap pr x = Panic -> pr = Debug /\ (x < i32_min \/ i32_max < x)%Z.
Proof.
  unfold i32_wrap. destruct pr.
  - destruct (_ && _)%bool eqn:E; [discriminate|]. intros _. split; auto. apply andb_false_iff in E as [E|E]; apply Z.leb_gt in E; lia.
  - destruct (_ && _)%bool; discriminate.
Qed.
Lemma time_like_nonneg s y : time_like s y -> (0 <= y)%Z.
Proof.
  induction 1 as [|ds u m rest z Hd Hb Hu H IH]; [lia|]. assert (Hv := digits_value_nonneg ds). apply unit_not_digit in Hu. nia.
Qed.
(** Where the reading of the number before the unit leads. *)
Lemma time_step pr total ds u m rest : Forall (fun d => d < 10) ds -> (digits_value ds <= i32_max)%Z -> In (u, m) units ->
  time_loop pr total 0 (digits_text ds ++ String u rest) =
  (let* x := i32_wrap pr (digits_value ds * m) in let* y := i32_wrap pr (total + x) in time_loop pr y 0 rest).
Proof.
  intros Hd Hb Hu. destruct (unit_not_digit _ _ Hu) as (U1 & U2 & U3 & U4).
  rewrite time_digits; auto; [|lia]. fold (digits_value ds). cbn [time_loop]. rewrite U1, U2, U3. reflexivity.
Qed.
Lemma debug_reads s y : time_like s y -> forall total, (0 <= total <= i32_max)%Z ->
  time_loop Debug total 0 s = if (total + y <=? i32_max)%Z then Ok (total + y)%Z else Panic.
Proof.
  induction 1 as [ds Hd Hb|ds u m rest z Hd Hb Hu H IH]; intros total Ht.
  - rewrite <- (app_nil_s (digits_text ds)), time_digits; auto; [|lia]. cbn [time_loop]. rewrite Z.add_0_r. destruct (Z.leb_spec total i32_max); [reflexivity|lia].
  - assert (Hv := digits_value_nonneg ds). destruct (unit_not_digit _ _ Hu) as (_ & _ & _ & Hm). assert (Hz := time_like_nonneg _ _ H).
    rewrite (time_step Debug total ds u m rest Hd Hb Hu).
    assert (G : forall x, (i32_max < x)%Z -> i32_wrap Debug x = Panic).
    { intros x Hx. unfold i32_wrap. destruct (Z.leb_spec x i32_max); [lia|]. rewrite andb_false_r. reflexivity. }
    destruct (Z.leb_spec (digits_value ds * m) i32_max) as [H1|H1].
    + rewrite i32_wrap_in by (unfold i32_min in *; nia). cbn [bind]. destruct (Z.leb_spec (total + digits_value ds * m) i32_max) as [H2|H2].
      * rewrite i32_wrap_in by (unfold i32_min in *; nia). cbn [bind]. rewrite IH by nia. rewrite Z.add_assoc. reflexivity.
      * rewrite (G _ H2). destruct (Z.leb_spec (total + (digits_value ds * m + z)) i32_max); [lia|reflexivity].
    + rewrite (G _ H1). destruct (Z.leb_spec (total + (digits_value ds * m + z)) i32_max); [lia|reflexivity].
Qed.
Lemma wrap_release_total x : exists r, i32_wrap Release x = Ok r.
Proof. unfold i32_wrap. destruct (_ && _)%bool; eauto. Qed.
Lemma release_reads s y : time_like s y -> forall total, (i32_min <= total <= i32_max)%Z ->
  exists z k, time_loop Release total 0 s = Ok z /\ z = (total + y + k * 4294967296)%Z /\ (i32_min <= z <= i32_max)%Z.
Proof.
  induction 1 as [ds Hd Hb|ds u m rest y Hd Hb Hu H IH]; intros total Ht.
  - exists total, 0%Z. rewrite <- (app_nil_s (digits_text ds)), time_digits; auto; [|lia]. cbn [time_loop]. split; [reflexivity|lia].
  - rewrite (time_step Release total ds u m rest Hd Hb Hu).
    destruct (wrap_release_total (digits_value ds * m)) as [x Hx]. rewrite Hx. cbn [bind]. apply i32_wrap_release in Hx as (k1 & -> & _).
    destruct (wrap_release_total (total + (digits_value ds * m + k1 * 4294967296))) as [w Hw]. rewrite Hw. cbn [bind]. apply i32_wrap_release in Hw as (k2 & -> & Hr).
    destruct (IH _ Hr) as (z & k & Hz & Ez & Rz). exists z, (k + k1 + k2)%Z. split; [exact Hz|]. split; [rewrite Ez; ring|exact Rz].
Qed.
(** What is read is of this form, and what panics begins with a time that is too long. *)
Lemma read_time_like pr s : forall pre total z, Forall (fun d => d < 10) pre -> (digits_value pre <= i32_max)%Z ->
  time_loop pr total (digits_value pre) s = Ok z -> exists y, time_like (digits_text pre ++ s) y.
Proof.
  induction s as [|c t IH]; intros pre total z Hp Hb H; cbn [time_loop] in H.
  - exists 0%Z. rewrite app_nil_s. constructor; auto.
  - destruct (digit_val c) as [v|] eqn:Ed.
    + destruct (digit_val_inv _ _ Ed) as (d & Hd & -> & ->).
      destruct (push_digit _ _) as [cur|] eqn:Ec; [|discriminate].
      apply push_digit_inv in Ec as [Ec Hc]. rewrite <- value_app in Ec. subst cur.
      apply IH in H as (y & Hy); [|apply Forall_app; auto|exact Hc].
      exists y. rewrite text_app, app_assoc_s in Hy. exact Hy.
    + destruct (is_lower c); [|discriminate]. destruct (unit_seconds c) as [m|] eqn:Eu; [|discriminate].
      apply bind_ok in H as (x & _ & H). apply bind_ok in H as (y & _ & H).
      change 0%Z with (digits_value []) in H at 1. apply IH in H as (w & Hw); [|constructor|unfold digits_value, i32_max; cbn; lia].
      exists (digits_value pre * m + w)%Z. constructor; auto. apply unit_seconds_inv; auto.
Qed.
Lemma panic_time_like s : forall pre total, Forall (fun d => d < 10) pre -> (digits_value pre <= i32_max)%Z -> (0 <= total)%Z ->
  time_loop Debug total (digits_value pre) s = Panic ->
  exists a b y, s = (a ++ b)%string /\ time_like (digits_text pre ++ a) y /\ (i32_max < total + y)%Z.
Proof.
  induction s as [|c t IH]; intros pre total Hp Hb Ht H; cbn [time_loop] in H; [discriminate|].
  destruct (digit_val c) as [v|] eqn:Ed.
  - destruct (digit_val_inv _ _ Ed) as (d & Hd & -> & ->).
    destruct (push_digit _ _) as [cur|] eqn:Ec; [|discriminate].
    apply push_digit_inv in Ec as [Ec Hc]. rewrite <- value_app in Ec. subst cur.
    apply IH in H as (a & b & y & -> & Hy & Hm); [|apply Forall_app; auto|exact Hc|auto].
    exists (String (digit_char d) a), b, y. split; [reflexivity|]. split; auto. rewrite text_app, app_assoc_s in Hy. exact Hy.
  - destruct (is_lower c); [|discriminate]. destruct (unit_seconds c) as [m|] eqn:Eu; [|discriminate].
    assert (Hm := unit_pos _ _ Eu). assert (Hv := digits_value_nonneg pre). apply unit_seconds_inv in Eu as Hu.
    assert (G : forall b, (i32_max < total + digits_value pre * m)%Z ->
      exists a b' y, String c b = (a ++ b')%string /\ time_like (digits_text pre ++ a) y /\ (i32_max < total + y)%Z).
    { intros b Hx. exists (String c ""), b, (digits_value pre * m + 0)%Z. split; [reflexivity|]. split; [|lia].
      apply tl_more; auto. apply (tl_end []); [constructor|unfold digits_value; cbn; lia]. }
    destruct (i32_wrap Debug (digits_value pre * m)) as [x| |] eqn:Hx; cbn [bind] in H; try discriminate.
    2:{ apply wrap_panic in Hx as [_ Hx]. apply G. unfold i32_min in Hx. nia. }
    apply i32_wrap_debug in Hx as [-> _].
    destruct (i32_wrap Debug (total + digits_value pre * m)) as [y| |] eqn:Hy; cbn [bind] in H; try discriminate.
    2:{ apply wrap_panic in Hy as [_ Hy]. apply G. unfold i32_min in Hy. nia. }
    apply i32_wrap_debug in Hy as [-> _].
    apply (IH []) in H as (a & b & w & -> & Hw & Hb'); [|constructor|unfold digits_value, i32_max; cbn; lia|nia].
    exists (String c a), b, (digits_value pre * m + w)%Z. split; [reflexivity|]. split; [|lia]. apply tl_more; auto.
Qed.
Lemma panic_prefix a b : forall total cur, time_loop Debug total cur a = Panic -> time_loop Debug total cur (a ++ b) = Panic.
Proof.
  induction a as [|c t IH]; intros total cur H; [discriminate|]. cbn [append time_loop] in *.
  destruct (digit_val c); [destruct (push_digit _ _); [auto|discriminate]|]. destruct (is_lower c); [|discriminate].
  destruct (unit_seconds c) as [m|]; [|discriminate]. destruct (i32_wrap Debug (cur * m)) as [x| |]; cbn [bind] in *; try discriminate; [|reflexivity].
  destruct (i32_wrap Debug (total + x)) as [y| |]; cbn [bind] in *; try discriminate; [auto|reflexivity].
Qed.
Lemma release_no_panic s : forall total cur, time_loop Release total cur s <> Panic.
Proof.
  induction s as [|c t IH]; intros total cur; cbn [time_loop]; [discriminate|].
  destruct (digit_val c); [destruct (push_digit _ _); [apply IH|discriminate]|]. destruct (is_lower c); [|discriminate].
  destruct (unit_seconds c) as [m|]; [|discriminate]. destruct (wrap_release_total (cur * m)) as [x ->]. cbn [bind].
  destruct (wrap_release_total (total + x)) as [y ->]. cbn [bind]. apply IH.
Qed.

(** ** Arguments: where a panic comes from *)
Section Args.
Context {F : Type} (pr : profile) (pf : string -> option F).
Let fl := fun v (x : F) => pf v = Some x.
Let tm := fun v x => parse_time pr v = Ok x.
Definition at_time (o : settings F) (ss : list string) : Prop :=
  exists pre flag v rest o1, ss = pre ++ flag :: v :: rest /\ applies fl tm (numeral u32_max) o pre o1 /\
    In flag ["-t"; "--timeout"; "--cs-timeout"] /\ parse_time pr v = Panic.
Lemma at_later o o2 ss more : (forall t o', applies fl tm (numeral u32_max) o2 t o' -> applies fl tm (numeral u32_max) o (more ++ t) o') ->
  at_time o2 ss -> at_time o (more ++ ss).
Proof.
  intros H (pre & flag & v & rest & o1 & -> & HA & HF & HP). exists (more ++ pre), flag, v, rest, o1. rewrite app_assoc. auto 10.
Qed.
Lemma arg_loop_panics n : forall ss (o : settings F), length ss <= n -> arg_loop pr pf o ss = Panic -> at_time o ss.
Proof.
  induction n as [|n IH]; intros [|a rest] o Hn H; cbn [Datatypes.length] in Hn; try lia; try discriminate.
  cbn [arg_loop] in H. destruct o as [i out any e to cs nc ns th mx gr].
  destruct (is_flag "-i" "--input" a) eqn:E1; [|clear E1].
  { destruct rest as [|v t]; [discriminate|]. cbn [Datatypes.length] in Hn. apply IH in H; [|lia].
    refine (at_later _ _ t [a; v] _ H); intros. eapply ap_input; [apply is_flag_true; eauto|reflexivity|eassumption]. }
  destruct (is_flag "-o" "--output" a) eqn:E1; [|clear E1].
  { destruct rest as [|v t]; [discriminate|]. cbn [Datatypes.length] in Hn. apply IH in H; [|lia].
    refine (at_later _ _ t [a; v] _ H); intros. eapply ap_output; [apply is_flag_true; eauto|reflexivity|eassumption]. }
  destruct (is_flag "-a" "--any" a) eqn:E1; [|clear E1].
  { apply IH in H; [|lia]. refine (at_later _ _ rest [a] _ H); intros. eapply ap_any; [apply is_flag_true; eauto|reflexivity|eassumption]. }
  destruct (is_flag "-p" "--pref-exp" a) eqn:E1; [|clear E1].
  { destruct rest as [|v t]; [discriminate|]. cbn [Datatypes.length] in Hn.
    destruct (pf v) as [x|] eqn:Ev; [|discriminate]. apply IH in H; [|lia].
    refine (at_later _ _ t [a; v] _ H); intros. eapply ap_exp; [apply is_flag_true; eauto|exact Ev|reflexivity|eassumption]. }
  destruct (is_flag "-t" "--timeout" a) eqn:E1; [|clear E1].
  { destruct rest as [|v t]; [discriminate|]. cbn [Datatypes.length] in Hn. apply is_flag_true in E1.
    destruct (parse_time pr v) as [x|m|] eqn:Ev; cbn [bind] in H; [|discriminate|].
    - apply IH in H; [|lia]. refine (at_later _ _ t [a; v] _ H); intros. eapply ap_timeout; [exact E1|exact Ev|reflexivity|eassumption].
    - exists [], a, v, t. eexists. split; [reflexivity|]. split; [constructor|]. split; [|exact Ev]. cbn in E1 |- *. tauto. }
  destruct (String.eqb a "--cs-timeout") eqn:E1; [|clear E1].
  { destruct rest as [|v t]; [discriminate|]. cbn [Datatypes.length] in Hn. apply eqb_true_in in E1.
    destruct (parse_time pr v) as [x|m|] eqn:Ev; cbn [bind] in H; [|discriminate|].
    - apply IH in H; [|lia]. refine (at_later _ _ t [a; v] _ H); intros. eapply ap_cs_timeout; [exact E1|exact Ev|reflexivity|eassumption].
    - exists [], a, v, t. eexists. split; [reflexivity|]. split; [constructor|]. split; [|exact Ev]. cbn in E1 |- *. tauto. }
  destruct (String.eqb a "--no-cs") eqn:E1; [|clear E1].
  { apply IH in H; [|lia]. refine (at_later _ _ rest [a] _ H); intros. eapply ap_no_cs; [apply eqb_true_in; eauto|reflexivity|eassumption]. }
  destruct (String.eqb a "--no-cs-simp") eqn:E1; [|clear E1].
  { apply IH in H; [|lia]. refine (at_later _ _ rest [a] _ H); intros. eapply ap_no_cs_simp; [apply eqb_true_in; eauto|reflexivity|eassumption]. }
  destruct (is_flag "-j" "--threads" a) eqn:E1; [|clear E1].
  { destruct rest as [|v t]; [discriminate|]. cbn [Datatypes.length] in Hn.
    destruct (parse_u32 v) as [x|] eqn:Ev; [|discriminate]. apply IH in H; [|lia].
    refine (at_later _ _ t [a; v] _ H); intros. eapply ap_threads; [apply is_flag_true; eauto|apply parse_unsigned_ok; exact Ev|reflexivity|eassumption]. }
  destruct (is_flag "-n" "--max-neighbors" a) eqn:E1; [|clear E1].
  { destruct rest as [|v t]; [discriminate|]. cbn [Datatypes.length] in Hn.
    destruct (parse_u32 v) as [x|] eqn:Ev; [|discriminate]. apply IH in H; [|lia].
    refine (at_later _ _ t [a; v] _ H); intros. eapply ap_neighbors; [apply is_flag_true; eauto|apply parse_unsigned_ok; exact Ev|reflexivity|eassumption]. }
  destruct (is_flag "-g" "--greedy" a) eqn:E1; [|clear E1].
  { apply IH in H; [|lia]. refine (at_later _ _ rest [a] _ H); intros. eapply ap_greedy; [apply is_flag_true; eauto|reflexivity|eassumption]. }
  destruct (is_flag "-h" "--help" a || String.eqb a "--version") eqn:E1; [|discriminate].
  apply IH in H; [|lia]. refine (at_later _ _ rest [a] _ H); intros. eapply ap_ignored; [|eassumption].
  apply orb_true_iff in E1 as [E1|E1]; [apply is_flag_true in E1|apply eqb_true_in in E1]; cbn in E1 |- *; tauto.
Qed.
Lemma arg_loop_after pre (o o1 : settings F) more : applies fl tm (numeral u32_max) o pre o1 -> arg_loop pr pf o (pre ++ more) = arg_loop pr pf o1 more.
Proof.
  induction 1; subst; try reflexivity;
    repeat match goal with
    | H : In _ [] |- _ => destruct H
    | H : In _ (_ :: _) |- _ => destruct H as [<- | H]
    | H : numeral _ _ _ |- _ => apply parse_unsigned_ok in H
    | H : tm _ _ |- _ => unfold tm in H
    | H : fl _ _ |- _ => unfold fl in H
    end; cbn -[parse_time parse_unsigned];
    repeat match goal with
    | H : ?x = Some _ |- context [?x] => rewrite H
    | H : parse_unsigned u32_max ?v = Some _ |- context [parse_u32 ?v] => unfold parse_u32; rewrite H
    | H : parse_time pr ?v = Ok _ |- _ => rewrite H; clear H
    end; cbn [bind]; auto.
Qed.
Lemma set_arguments_panics (o : settings F) args : fst (set_arguments pr pf o args) = Panic <-> exists ss, args = map DStr ss /\ at_time o ss.
Proof.
  unfold set_arguments. split.
  - destruct (all_strings args) as [ss|] eqn:E; [|discriminate]. apply all_strings_spec in E. intros H. exists ss. split; [exact E|].
    apply (arg_loop_panics (length ss) ss o (le_n _)). destruct (arg_loop pr pf o ss); cbn in H; congruence.
  - intros (ss & H & pre & flag & v & rest & o1 & -> & HA & HF & HP). apply all_strings_spec in H. rewrite H, (arg_loop_after _ _ _ _ HA).
    assert (K : arg_loop pr pf o1 (flag :: v :: rest) = Panic).
    { repeat (destruct HF as [<- | HF]; [cbn -[parse_time]; rewrite HP; reflexivity|]). destruct HF. }
    rewrite K. reflexivity.
Qed.
End Args.

(** ** Times that are not too long *)
Lemma too_long_panics v : too_long v <-> parse_time Debug v = Panic.
Proof.
  unfold parse_time, too_long. split.
  - intros (a & b & y & -> & H & Hy). apply panic_prefix. rewrite (debug_reads _ _ H) by (unfold i32_max; lia).
    destruct (Z.leb_spec (0 + y) i32_max); [unfold i32_max in *; lia|reflexivity].
  - intros H. apply (panic_time_like v [] 0) in H; [exact H|constructor|discriminate|lia].
Qed.
Lemma time_in_range pr v : ~ too_long v -> parse_time pr v <> Panic /\ forall z, parse_time pr v = Ok z -> (0 <= z)%Z.
Proof.
  intros HT. split.
  - destruct pr; [rewrite <- too_long_panics; exact HT|apply release_no_panic].
  - intros z H. destruct (read_time_like pr v [] 0 z ltac:(constructor) ltac:(discriminate) H) as [y Hy]. cbn in Hy.
    assert (Hm : (y <= 2147483647)%Z).
    { destruct (Z.le_gt_cases y 2147483647) as [K|K]; [exact K|]. exfalso. apply HT. exists v, "", y. rewrite app_nil_s. auto. }
    assert (H0 := time_like_nonneg _ _ Hy). destruct pr.
    + unfold parse_time in H. rewrite (debug_reads _ _ Hy) in H by (unfold i32_max; lia). destruct (Z.leb_spec (0 + y) i32_max); [|discriminate]. injection H as <-. exact H0.
    + destruct (release_reads _ _ Hy 0) as (z' & k & Hz & Ez & Rz); [unfold i32_min, i32_max; lia|]. unfold parse_time in H. rewrite Hz in H. injection H as <-.
      unfold i32_min, i32_max in Rz. lia.
Qed.

(** ** A text means one time at most *)
Fixpoint ideal (cur : Z) (s : string) : Z :=
  match s with
  | EmptyString => 0
  | String c t => match digit_val c with
                  | Some v => ideal (10 * cur + Z.of_N v) t
                  | None => match unit_seconds c with Some m => cur * m + ideal 0 t | None => 0 end
                  end
  end%Z.
Lemma ideal_digits ds : forall cur r, Forall (fun d => d < 10) ds ->
  ideal cur (digits_text ds ++ r) = ideal (fold_left (fun a d => (10 * a + Z.of_nat d)%Z) ds cur) r.
Proof.
  induction ds as [|d t IH]; intros cur r H; [reflexivity|]. inversion H as [|? ? Hd Ht]; subst. rewrite text_cons. cbn [append ideal fold_left].
  rewrite (digit_val_char d Hd), (IH _ _ Ht), nat_N_Z. reflexivity.
Qed.
Lemma time_like_ideal s y : time_like s y -> y = ideal 0 s.
Proof.
  induction 1 as [ds Hd Hb|ds u m rest z Hd Hb Hu H IH].
  - assert (E := ideal_digits ds 0 "" Hd). rewrite P_Script1.app_nil_s in E. rewrite E. reflexivity.
  - rewrite (ideal_digits ds 0 _ Hd). destruct (unit_not_digit _ _ Hu) as (U1 & _ & U3 & _). cbn [ideal]. rewrite U1, U3, <- IH. reflexivity.
Qed.
