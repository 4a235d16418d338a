(** Property theorem about times: C22, what is read and how. *)
From Verif Require Import Base M_Data.
From Verif Require Import M_Names M_Rng M_Build Spec_Input P_Script8 M_Script Spec_Script P_Script1 P_Script7 Spec_Times P_Times.
From Verif Require T_Script P_Script8.
From Coq Require Import String Ascii.
Notation length := Datatypes.length.
Notation get := Base.get.
Open Scope string_scope.
Open Scope list_scope.

(** Debug builds: read exactly when of this form and in range; a panic exactly when the
    text begins with a time that is too long.  Release builds: the time modulo 2^32 and
    never a panic.  Everything else is rejected. *)
Theorem C22_exact_reading_partial :
  forall s : string,
    (forall z, parse_time Debug s = Ok z <-> time_like s z /\ (z <= 2147483647)%Z) /\
    (parse_time Debug s = Panic <-> exists a b y, s = (a ++ b)%string /\ time_like a y /\ (2147483647 < y)%Z) /\
    (forall z, parse_time Release s = Ok z <->
       exists y k, time_like s y /\ z = (y + k * 4294967296)%Z /\ (-2147483648 <= z <= 2147483647)%Z) /\
    parse_time Release s <> Panic.
Proof.
  intros s. split; [|split; [|split]].
  - intros z. unfold parse_time. split.
    + intros H. destruct (read_time_like Debug s [] 0 z ltac:(constructor) ltac:(discriminate) H) as [y Hy]. cbn in Hy.
      rewrite (debug_reads _ _ Hy) in H by (unfold i32_max; lia). destruct (Z.leb_spec (0 + y) i32_max); [|discriminate]. injection H as <-. split; [exact Hy|assumption].
    + intros [H Hz]. rewrite (debug_reads _ _ H) by (unfold i32_max; lia). destruct (Z.leb_spec (0 + z) i32_max); [reflexivity|unfold i32_max in *; lia].
  - unfold parse_time. split.
    + intros H. apply (panic_time_like s [] 0) in H; [exact H|constructor|discriminate|lia].
    + intros (a & b & y & -> & H & Hy). apply panic_prefix. rewrite (debug_reads _ _ H) by (unfold i32_max; lia).
      destruct (Z.leb_spec (0 + y) i32_max); [unfold i32_max in *; lia|reflexivity].
  - intros z. unfold parse_time. split.
    + intros H. destruct (read_time_like Release s [] 0 z ltac:(constructor) ltac:(discriminate) H) as [y Hy]. cbn in Hy.
      destruct (release_reads _ _ Hy 0) as (z' & k & Hz & Ez & Rz); [unfold i32_min, i32_max; lia|]. rewrite Hz in H. injection H as <-.
      exists y, k. auto.
    + intros (y & k & Hy & -> & R). destruct (release_reads _ _ Hy 0) as (z' & k' & Hz & Ez & Rz); [unfold i32_min, i32_max; lia|].
      rewrite Hz. f_equal. unfold i32_min, i32_max in Rz. lia.
  - apply release_no_panic.
Qed.
Print Assumptions C22_exact_reading_partial.
Example C22_exact_witness : time_like "4000w" 2419200000 /\ time_like "1h30m" 5400 /\
  parse_time Debug "4000wrong" = Panic /\ parse_time Release "4000w" = Ok (2419200000 + -1 * 4294967296)%Z /\
  parse_time Debug "3000000000s" = Err msg_time /\ parse_time Release "3000000000s" = Err msg_time.
Proof.
  split; [|split; [|repeat split; vm_compute; reflexivity]].
  - change (time_like (digits_text [4; 0; 0; 0] ++ String "w" (digits_text [])) (digits_value [4; 0; 0; 0] * 604800 + 0)).
    apply tl_more; [repeat constructor; lia|vm_compute; discriminate|cbn; tauto|apply tl_end; [constructor|vm_compute; discriminate]].
  - change (time_like (digits_text [1] ++ String "h" (digits_text [3; 0] ++ String "m" (digits_text []))) (digits_value [1] * 3600 + (digits_value [3; 0] * 60 + 0))).
    apply tl_more; [repeat constructor; lia|vm_compute; discriminate|cbn; tauto|].
    apply tl_more; [repeat constructor; lia|vm_compute; discriminate|cbn; tauto|apply tl_end; [constructor|vm_compute; discriminate]].
Qed.

(** A text means one time at most, so the two readings above are the only ones. *)
Theorem C22_one_time_per_text :
  forall (s : string) (y y' : Z), time_like s y -> time_like s y' -> y = y'.
Proof. intros s y y' H H'. rewrite (time_like_ideal _ _ H), (time_like_ideal _ _ H'). reflexivity. Qed.
Print Assumptions C22_one_time_per_text.
Example C22_one_time_witness : time_like "5" 0 /\ forall y, time_like "5" y -> y = 0%Z.
Proof.
  assert (H : time_like "5" 0) by (apply (tl_end [5]); [repeat constructor; lia|vm_compute; discriminate]).
  split; [exact H|]. intros y H'. exact (C22_one_time_per_text _ _ _ H' H).
Qed.


(** Exactly which arguments panic (in debug builds only): after arguments that can be
    applied, a time option whose value begins with a time that is too long. *)
Theorem C23_which_arguments_panic :
  forall (F : Type) (pr : profile) (pf : string -> option F) (o : settings F) (args : list dyn),
    fst (set_arguments pr pf o args) = Panic <->
    pr = Debug /\ exists pre flag v rest o1, args = map DStr (pre ++ flag :: v :: rest) /\
      applies (fun v x => pf v = Some x) (fun v x => time_like v x /\ (x <= 2147483647)%Z) (numeral u32_max) o pre o1 /\
      time_option flag /\ too_long v.
Proof.
  assert (G : forall F (fl : string -> F -> Prop) (tm tm' : string -> Z -> Prop) num, (forall v x, tm v x -> tm' v x) -> forall o ss o', applies fl tm num o ss o' -> applies fl tm' num o ss o').
  { intros F fl tm tm' num HT o ss o'. induction 1; subst;
      [eapply ap_end|eapply ap_input|eapply ap_output|eapply ap_any|eapply ap_exp|eapply ap_timeout|eapply ap_cs_timeout|eapply ap_no_cs
      |eapply ap_no_cs_simp|eapply ap_threads|eapply ap_neighbors|eapply ap_greedy|eapply ap_ignored]; eauto. }
  intros F pr pf o args. rewrite set_arguments_panics. split.
  - intros (ss & -> & pre & flag & v & rest & o1 & -> & HA & HF & HP).
    assert (pr = Debug) by (destruct pr; [reflexivity|destruct (release_no_panic v 0 0 HP)]). subst pr. split; [reflexivity|].
    exists pre, flag, v, rest, o1. split; [reflexivity|]. split; [|split; [exact HF|apply C22_exact_reading_partial; exact HP]].
    eapply G; [|exact HA]. intros v0 x Hx. apply C22_exact_reading_partial. exact Hx.
  - intros (-> & pre & flag & v & rest & o1 & -> & HA & HF & HT). eexists. split; [reflexivity|]. exists pre, flag, v, rest, o1. split; [reflexivity|].
    split; [|split; [exact HF|apply C22_exact_reading_partial; exact HT]].
    eapply G; [|exact HA]. intros v0 x Hx. apply C22_exact_reading_partial. exact Hx.
Qed.
Print Assumptions C23_which_arguments_panic.

Lemma exec_all_args F pr pf xs : forall (w w' : world F) tr, exec_all pr pf w xs = (tr, w') ->
  forall x r, In (x, r) tr -> In x xs /\ exists w1, r = fst (exec pr pf w1 x).
Proof.
  induction xs as [|x xs IH]; intros w w' tr H y r Hi; cbn [exec_all] in H.
  - injection H as <- <-. destruct Hi.
  - destruct (exec pr pf w x) as [r1 w1] eqn:E. destruct (exec_all pr pf w1 xs) as [t w2] eqn:E2. injection H as <- <-.
    destruct Hi as [Hi|Hi].
    + injection Hi as <- <-. split; [left; reflexivity|]. exists w. rewrite E. reflexivity.
    + destruct (IH _ _ _ E2 _ _ Hi). split; [right; assumption|assumption].
Qed.
(** A call of the script interface panics only for such arguments. *)
Theorem C58_only_long_times_panic_partial :
  forall (F : Type) (pr : profile) (pf : string -> option F) (o : settings F) (xs : list op) (tr : list event) (w : world F),
    exec_all pr pf (mkWorld rs_empty o) xs = (tr, w) -> proper_trace tr ->
    forall x, In (x, Panic) tr ->
      pr = Debug /\ exists pre flag v rest, x = OpArgs (map DStr (pre ++ flag :: v :: rest)) /\ time_option flag /\ too_long v.
Proof.
  intros F pr pf o xs tr w H HP x Hx. destruct (T_Script.C58_calls_never_panic_partial F pr pf o xs tr w H HP x Hx) as (args & -> & ->).
  split; [reflexivity|]. destruct (exec_all_args _ _ _ _ _ _ _ H _ _ Hx) as (_ & w1 & E). cbn [exec] in E.
  assert (K : fst (set_arguments Debug pf (w_opts w1) args) = Panic) by (destruct (set_arguments Debug pf (w_opts w1) args) as [[v|m|] o2]; cbn in E |- *; congruence).
  apply C23_which_arguments_panic in K as (_ & pre & flag & v & rest & o1 & -> & _ & HF & HT). exists pre, flag, v, rest. auto.
Qed.
Print Assumptions C58_only_long_times_panic_partial.
(** A script whose times are not too long, and whose integers have 32 bits, is read
    without a panic, in debug builds too. *)
Theorem C58_reading_short_times_never_panics_partial :
  forall (F : Type) (pr : profile) (pf : string -> option F) (o : settings F) (xs : list op) (fail : option string)
         (tr : list event) (w : world F),
    exec_all pr pf (mkWorld rs_empty o) xs = (tr, w) -> proper_trace tr -> no_renames xs ->
    (forall l r z, In (l, r, OpInt z) (constraints_of tr) \/ In (OpInt z, r, l) (constraints_of tr) -> (z <= 4294967295)%Z) ->
    (forall ps, Forall2 (declared_choice tr) (filter is_choice (additions tr)) ps -> (Z.of_nat (first_index ps (length ps)) <= i32_max)%Z) ->
    (forall pre flag v rest, In (OpArgs (map DStr (pre ++ flag :: v :: rest))) xs -> time_option flag -> ~ too_long v) ->
    fst (read_script pr pf o xs fail) <> Panic.
Proof.
  intros F pr pf o xs fail tr w H HP HN HI HS HT. apply (T_Script.C58_reading_never_panics_partial F pr pf o xs fail tr w H HP HN HI HS).
  intros _ args Hx. destruct (C58_only_long_times_panic_partial F pr pf o xs tr w H HP _ Hx) as (_ & pre & flag & v & rest & E & HF & HL).
  apply (HT pre flag v rest); auto. rewrite <- E. exact (proj1 (exec_all_args _ _ _ _ _ _ _ H _ _ Hx)).
Qed.
Print Assumptions C58_reading_short_times_never_panics_partial.
Example C23_panics_witness : too_long "4000weeks" /\ ~ too_long "1m30s" /\ ~ too_long "" /\
  fst (set_arguments Debug T_Script.pf0 T_Script.o0 [DStr "-g"; DStr "-t"; DStr "4000weeks"; DStr "??"]) = Panic /\
  fst (set_arguments Release T_Script.pf0 T_Script.o0 [DStr "-g"; DStr "-t"; DStr "4000weeks"; DStr "??"]) <> Panic.
Proof.
  split; [apply too_long_panics; vm_compute; reflexivity|]. split; [rewrite too_long_panics; vm_compute; discriminate|].
  split; [rewrite too_long_panics; vm_compute; discriminate|]. split; vm_compute; [reflexivity|discriminate].
Qed.
Example C58_short_times_witness :
  proper_trace (fst (exec_all Debug T_Script.pf0 (mkWorld rs_empty T_Script.o0) T_Script.xs0)) /\ no_renames T_Script.xs0 /\
  (forall pre flag v rest, In (OpArgs (map DStr (pre ++ flag :: v :: rest))) T_Script.xs0 -> time_option flag -> ~ too_long v).
Proof.
  split; [apply P_Script8.proper_b_ok; vm_compute; reflexivity|]. split; [vm_compute; reflexivity|].
  intros pre flag v rest H HF. rewrite too_long_panics.
  set (a1 := [DStr "-t"; DStr "1m30s"; DStr "--any"]). set (a2 := [DStr "-g"; DStr "-j"; DStr "many"]).
  assert (E : In (map DStr (pre ++ flag :: v :: rest)) [a1; a2]).
  { apply (in_map (fun x => match x with OpArgs l => l | _ => a1 end)) in H. cbn [T_Script.xs0 map In] in H |- *. intuition auto. }
  assert (L : length (map DStr (pre ++ flag :: v :: rest)) = 3) by (destruct E as [<- | [<- | []]]; reflexivity).
  assert (N : forall w, In w ["1m30s"; "--any"; "-g"; "-j"; "many"] -> w <> flag).
  { intros w Hw ->. unfold time_option in HF. cbn [In] in HF, Hw. intuition congruence. }
  assert (P1 : parse_time Debug "1m30s" <> Panic) by (vm_compute; discriminate). clear H HF.
  rewrite map_length, app_length in L. cbn [Datatypes.length] in L.
  destruct pre as [|p1 [|p2 pre]]; [| |cbn [Datatypes.length] in L; lia]; cbn [map app In] in E.
  - destruct E as [E | [E | []]]; [unfold a1 in E|unfold a2 in E; exfalso]; injection E as E1 E2 E3.
    + subst v. exact P1.
    + apply (N "-g"); [cbn; tauto|exact E1].
  - exfalso. destruct E as [E | [E | []]]; [unfold a1 in E|unfold a2 in E]; injection E as E1 E2 E3 E4; [apply (N "1m30s")|apply (N "-j")]; cbn; try tauto; exact E2.
Qed.
