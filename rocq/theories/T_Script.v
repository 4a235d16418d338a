(** Property theorems about the script interface: C22-C25, C38, C45, C57-C59.
    A run of a script is the list of the calls it makes ([op]); [exec_all] gives
    what each call returned (the trace) and the reader afterwards; [read_script]
    is InputReader::read_input on a new reader with options [o].  [F] is f64 and
    [pf] its parser. *)
From Verif Require Import Base M_Data M_Names M_Rng M_Build Spec Spec_Input P_Check P_Compile P_Resolve P_Input P_Input2 M_Script Spec_Script
  P_Script1 P_Names P_Script2 P_Script3 P_Script4 P_Script5 P_Script6 P_Script7 P_Script8.
From Verif Require T_Input.
From Coq Require Import String Ascii Sorted.
Notation length := Datatypes.length.
Notation get := Base.get.
Open Scope string_scope.
Import ListNotations.
Open Scope list_scope.

(** ** A sample script *)
Definition pf0 (_ : string) : option nat := None.
Definition o0 : settings nat := mkSettings [] None false 3 10%Z 3%Z false false 4%N 12%N false.
Definition xs0 : list op :=
  [OpNewSlot "Monday"; OpAdd (HSlot 0); OpNewSlot "Tuesday"; OpAdd (HSlot 1);
   OpNewChoice "Chess" [TgBounds 1 2; TgInt NParts 2]; OpAdd (HChoice 0);
   OpNewChoice "Go" [TgInt NMax 2]; OpAdd (HChoice 1);
   OpNewChoice "Bridge" [TgStr NMax "2"; TgOptional true]; OpAdd (HChoice 2);
   OpNewChooser "Ann" [DInt 1; DInt 5; DInt 2]; OpAdd (HChooser 0);
   OpNewChooser "Bob" [DStr "3"; DInt 0; DInt 1]; OpAdd (HChooser 1);
   OpNewChooser "Cid" [DInt 0; DInt 0; DInt 0]; OpAdd (HChooser 2);
   OpNewChooser "Bo" []; OpNewSlot "day";
   OpConstrain (OpChoiceSlotPart 0 1) REq (OpSlot 1);
   OpConstrain (OpChooserChoices 0) RContains (OpChoice 1);
   OpArgs [DStr "-t"; DStr "1m30s"; DStr "--any"]; OpArgs [DStr "-g"; DStr "-j"; DStr "many"]].
Definition tr0 : list event := fst (exec_all Debug pf0 (mkWorld rs_empty o0) xs0).
Definition w0 : world nat := snd (exec_all Debug pf0 (mkWorld rs_empty o0) xs0).
Lemma xs0_runs : exec_all Debug pf0 (mkWorld rs_empty o0) xs0 = (tr0, w0).
Proof. unfold tr0, w0. destruct (exec_all _ _ _ _); reflexivity. Qed.
Lemma tr0_proper : proper_trace tr0.
Proof. apply proper_b_ok. vm_compute. reflexivity. Qed.
Lemma xs0_no_renames : no_renames xs0.
Proof. vm_compute. reflexivity. Qed.
Definition value {A} (d : A) (r : outcome A) : A := match r with Ok x => x | _ => d end.
Definition d0 : input_data := value T_Input.d1 (fst (read_script Debug pf0 o0 xs0 None)).
Lemma xs0_reads : read_script Debug pf0 o0 xs0 None = (Ok d0, mkSettings [] None true 3 90%Z 3%Z false false 4%N 12%N false).
Proof. vm_compute. reflexivity. Qed.

(** ** C22.  Full statement: [parse_time pr s = Ok z] iff [time_text s z], every
    other string being an error.  Proved: time strings of at most [i32::MAX]
    seconds are read correctly; whatever is accepted is a loose time string
    (numbers may be missing and count 0, digits after the last unit are ignored)
    and, in release builds, the value is correct up to a multiple of 2^32. *)
Theorem C22_components_add_up_partial :
  forall (pr : profile) (s : string) (z : Z), time_text s z -> (z <= i32_max)%Z -> parse_time pr s = Ok z.
Proof.
  intros pr s z H Hz. change z with (0 + z)%Z. apply parse_time_text; auto; lia.
Qed.
Print Assumptions C22_components_add_up_partial.
Theorem C22_accepted_strings_partial :
  forall (pr : profile) (s : string) (z : Z), parse_time pr s = Ok z ->
    exists y k, loose_text s y /\ z = (y + k * 4294967296)%Z /\ (i32_min <= z <= i32_max)%Z /\ (pr = Debug -> k = 0%Z).
Proof. exact parse_time_loose_any. Qed.
Print Assumptions C22_accepted_strings_partial.
Lemma one_minute_thirty : time_text "1m30s" 90.
Proof.
  change "1m30s" with (digits_text [1] ++ String "m" (digits_text [3;0] ++ String "s" ""))%string.
  change 90%Z with (digits_value [1%nat] * 60 + (digits_value [3%nat;0%nat] * 1 + 0))%Z.
  repeat (constructor; try discriminate; try (repeat constructor; lia); try (cbn; tauto)).
Qed.
Example C22_witness : time_text "1m30s" 90 /\ parse_time Debug "1m30s" = Ok 90%Z /\
  (exists m, parse_time Release "1x" = Err m) /\ (exists m, parse_time Debug "1 m" = Err m).
Proof. split; [exact one_minute_thirty|]. repeat split; try (eexists; vm_compute; reflexivity). Qed.
(** Not a time string, but accepted: a number without unit counts nothing. *)
Theorem C22_missing_unit_refuted :
  parse_time Debug "10" = Ok 0%Z /\ parse_time Release "10" = Ok 0%Z /\ (forall z, ~ time_text "10" z) /\
  parse_time Debug "m" = Ok 0%Z /\ (forall z, ~ time_text "m" z).
Proof.
  repeat split; try (vm_compute; reflexivity).
  - intros z H. apply time_text_last in H as [H|(p & u & m & H & Hu)]; [discriminate|].
    destruct p as [|a [|b [|c p]]]; cbn in H; try discriminate. injection H as _ <-. cbn in Hu. intuition discriminate.
  - intros z H. inversion H as [E|ds u m rest y Hn Hd Hu Hr E]; subst. destruct ds as [|d ds]; [congruence|].
    apply (f_equal (fun s => match s with String c _ => c | EmptyString => "m"%char end)) in E.
    change (digit_char d = "m"%char) in E. inversion Hd as [|? ? Hlt _]; subst.
    assert (F : Forall (fun k => digit_char k <> "m"%char) (seq 0 10)) by (repeat constructor; discriminate).
    rewrite Forall_forall in F. apply (F d); [apply in_seq; lia|exact E].
Qed.
Print Assumptions C22_missing_unit_refuted.
(** A correct time string of more than [i32::MAX] seconds: a negative time in
    release builds, a panic in debug builds. *)
Theorem C22_overflow_refuted :
  time_text "4000w" 2419200000 /\ parse_time Release "4000w" = Ok (-1875767296)%Z /\ parse_time Debug "4000w" = Panic.
Proof.
  repeat split; try (vm_compute; reflexivity).
  change "4000w" with (digits_text [4;0;0;0] ++ String "w" "")%string.
  change 2419200000%Z with (digits_value [4%nat;0%nat;0%nat;0%nat] * 604800 + 0)%Z.
  repeat (constructor; try discriminate; try (repeat constructor; lia); try (cbn; tauto)).
Qed.
Print Assumptions C22_overflow_refuted.

(** ** C23.  A panic (debug builds, times over [i32::MAX] seconds) aborts the read;
    otherwise the call applies everything or changes nothing and then no
    reading of the arguments exists. *)
Theorem C23_set_arguments_atomic :
  forall (F : Type) (pr : profile) (pf : string -> option F) (o o' : settings F) (args : list dyn) (r : outcome unit),
    set_arguments pr pf o args = (r, o') ->
    let ok ss o'' := args = map DStr ss /\
        applies (fun v x => pf v = Some x) (fun v x => parse_time pr v = Ok x) (numeral u32_max) o ss o'' in
    match r with
    | Ok _ => exists ss, ok ss o'
    | Err _ | Panic => o' = o /\ forall ss o'', ~ ok ss o''
    end /\ (pr = Release -> r <> Panic).
Proof.
  intros F pr pf o o' args r H. cbn. unfold set_arguments in H.
  assert (X : forall ss, args = map DStr ss <-> all_strings args = Some ss) by (intros; symmetry; apply all_strings_spec).
  destruct (all_strings args) as [ss|] eqn:E.
  - assert (G := arg_loop_complete pr pf ss o). assert (S := arg_loop_sound pr pf (length ss) ss o).
    assert (NP := arg_loop_np pf (length ss) ss o ltac:(lia)).
    destruct (arg_loop pr pf o ss) as [o1|m|] eqn:EA; injection H as <- <-.
    + split; [|discriminate]. exists ss. split; [apply X; auto|]. apply S; auto.
    + split; [|discriminate]. split; auto. intros ss' o'' [H1 H2]. apply X in H1. injection H1 as <-. apply G in H2. discriminate.
    + split; [|intros ->; congruence]. split; auto. intros ss' o'' [H1 H2]. apply X in H1. injection H1 as <-. apply G in H2. discriminate.
  - injection H as <- <-. split; [|discriminate]. split; auto. intros ss o'' [H1 _]. apply X in H1. discriminate.
Qed.
Print Assumptions C23_set_arguments_atomic.
Example C23_witness :
  set_arguments Debug pf0 o0 [DStr "-t"; DStr "1m30s"; DStr "--any"] = (Ok tt, mkSettings [] None true 3 90%Z 3%Z false false 4%N 12%N false) /\
  (exists m, set_arguments Debug pf0 o0 [DStr "-g"; DStr "-j"; DStr "many"] = (Err m, o0)) /\
  (exists m, set_arguments Debug pf0 o0 [DStr "-g"; DStr "-o"] = (Err m, o0)) /\
  (exists m, set_arguments Debug pf0 o0 [DStr "-g"; DInt 5] = (Err m, o0)).
Proof. repeat split; try (vm_compute; reflexivity); eexists; vm_compute; reflexivity. Qed.
(** The call as a script makes it: it registers nothing, and either all arguments
    take effect or the call fails and nothing has changed. *)
Theorem C23_call_in_a_script :
  forall (F : Type) (pr : profile) (pf : string -> option F) (w w' : world F) (args : list dyn) (r : outcome (option handle)),
    exec pr pf w (OpArgs args) = (r, w') ->
    let ok ss o'' := args = map DStr ss /\
        applies (fun v x => pf v = Some x) (fun v x => parse_time pr v = Ok x) (numeral u32_max) (w_opts w) ss o'' in
    w_state w' = w_state w /\
    (r = Ok None /\ (exists ss, ok ss (w_opts w')) \/
     (forall h, r <> Ok h) /\ w' = w /\ forall ss o'', ~ ok ss o'').
Proof.
  intros F pr pf w w' args r H. cbn [exec] in H. destruct (set_arguments pr pf (w_opts w) args) as [q o] eqn:E.
  destruct (C23_set_arguments_atomic F pr pf (w_opts w) o args q E) as [K _]. destruct w as [st o1]. cbn [w_state w_opts] in *.
  destruct q as [u|m|]; injection H as <- <-; cbn [w_state w_opts]; (split; [reflexivity|]).
  - left. split; [reflexivity|exact K].
  - right. destruct K as [-> K]. split; [discriminate|]. split; [reflexivity|exact K].
  - right. destruct K as [-> K]. split; [discriminate|]. split; [reflexivity|exact K].
Qed.
Print Assumptions C23_call_in_a_script.
Example C23_call_witness : exists m, exec Debug pf0 (mkWorld rs_empty o0) (OpArgs [DStr "-g"; DStr "-j"; DStr "many"]) = (Err m, mkWorld rs_empty o0).
Proof. eexists. vm_compute. reflexivity. Qed.
Theorem C23_debug_panic_refuted :
  exists (o : settings nat) (args : list dyn), fst (set_arguments Debug pf0 o args) = Panic.
Proof. exists o0, [DStr "-t"; DStr "4000w"]. vm_compute. reflexivity. Qed.
Print Assumptions C23_debug_panic_refuted.

(** ** C24.  A creating call in any rename-free run: [ns] are the names of the
    objects of the kind added so far and [l] the positions of the names that
    match at the best level; no match creates a new object, one match returns
    that object, several are an error. *)
Theorem C24_lookup :
  forall (F : Type) (pr : profile) (pf : string -> option F) (o : settings F) (xs : list op) (x : op) (n : string)
         (tr : list event) (w w' : world F) (r : outcome (option handle)),
    exec_all pr pf (mkWorld rs_empty o) xs = (tr, w) -> proper_trace tr -> no_renames xs ->
    asked_name x = Some n -> exec pr pf w x = (r, w') ->
    exists ns l, named tr (filter (kind_of x) (additions tr)) ns /\ NoDup ns /\ best_match ns (levels n) l /\
      (forall h, r = Ok (Some h) ->
         match l with
         | [] => kind_of x h = true /\ ~ In h (issued tr)
         | [i] => nth_error (filter (kind_of x) (additions tr)) i = Some h
         | _ => False
         end) /\
      (fair_args x -> match l with [] | [_] => exists h, r = Ok (Some h) | _ => exists m, r = Err m end).
Proof. intros. eapply exec_lookup; eauto. Qed.
Print Assumptions C24_lookup.
(** An exact match wins over all others. *)
Theorem C24_exact_wins :
  forall (F : Type) (pr : profile) (pf : string -> option F) (o : settings F) (xs : list op) (x : op) (n : string)
         (tr : list event) (w w' : world F) (r : outcome (option handle)) (h : handle),
    exec_all pr pf (mkWorld rs_empty o) xs = (tr, w) -> proper_trace tr -> no_renames xs ->
    asked_name x = Some n -> fair_args x -> exec pr pf w x = (r, w') ->
    In h (additions tr) -> kind_of x h = true -> created_as tr h n -> r = Ok (Some h).
Proof.
  intros F pr pf o xs x n tr w w' r h H HP HN HA HF HE Hin Hk Hc.
  destruct (exec_lookup _ _ _ _ _ _ _ _ _ _ H HP HN HA HE) as (ns & l & Hn & Hd & Hb & H1 & H2).
  assert (Hf : In h (filter (kind_of x) (additions tr))) by (apply filter_In; auto).
  apply In_nth_error in Hf as (i & Hi).
  assert (Ni : nth_error ns i = Some n).
  { destruct (nth_error ns i) as [m|] eqn:E.
    - f_equal. eapply created_unique; [|exact Hc]. eapply named_nth; eauto.
    - apply nth_error_None in E. rewrite <- (named_length _ _ _ Hn) in E.
      assert (i < length (filter (kind_of x) (additions tr))); [|lia]. apply nth_error_Some. congruence. }
  assert (l = [i]) by (eapply exact_best; eauto). subst l. destruct (H2 HF) as (g & ->). f_equal. f_equal.
  specialize (H1 g eq_refl). cbn in H1. congruence.
Qed.
Print Assumptions C24_exact_wins.
(** A name that occurs in no name of the kind creates a new object. *)
Theorem C24_new_names_create_partial :
  forall (F : Type) (pr : profile) (pf : string -> option F) (o : settings F) (xs : list op) (x : op) (n : string)
         (tr : list event) (w w' : world F) (r : outcome (option handle)),
    exec_all pr pf (mkWorld rs_empty o) xs = (tr, w) -> proper_trace tr -> no_renames xs ->
    asked_name x = Some n -> fair_args x -> exec pr pf w x = (r, w') ->
    (forall h m, In h (additions tr) -> kind_of x h = true -> created_as tr h m -> ~ occurs n m) ->
    exists h, r = Ok (Some h) /\ kind_of x h = true /\ ~ In h (issued tr).
Proof.
  intros F pr pf o xs x n tr w w' r H HP HN HA HF HE Hno.
  destruct (exec_lookup _ _ _ _ _ _ _ _ _ _ H HP HN HA HE) as (ns & l & Hn & Hd & Hb & H1 & H2).
  assert (l = []).
  { eapply best_unique; [exact Hb|]. rewrite <- (proj2 (fuzzy_none n ns)); [apply fuzzy_best|].
    intros v Hv. apply In_nth_error in Hv as (i & Hi).
    destruct (nth_error (filter (kind_of x) (additions tr)) i) as [h|] eqn:E.
    - assert (Hc := named_nth _ _ _ _ _ _ Hn E Hi). apply nth_error_In, filter_In in E as [E1 E2]. eauto.
    - apply nth_error_None in E. rewrite (named_length _ _ _ Hn) in E. assert (i < length ns); [|lia]. apply nth_error_Some. congruence. }
  subst l. destruct (H2 HF) as (h & ->). exists h. split; auto.
Qed.
Print Assumptions C24_new_names_create_partial.
(** After the first 16 calls of the sample: "Bo" is found in "Bob" (level 4),
    "day" occurs in both slots, "Tuesday" is exact, "Wednesday" is new. *)
Example C24_witness :
  exec Debug pf0 w0 (OpNewChooser "Bo" []) = (Ok (Some (HChooser 1)), w0) /\
  (exists m, exec Debug pf0 w0 (OpNewSlot "day") = (Err m, w0)) /\
  exec Debug pf0 w0 (OpNewSlot "Tuesday") = (Ok (Some (HSlot 1)), w0) /\
  fst (exec Debug pf0 w0 (OpNewSlot "Wednesday")) = Ok (Some (HSlot 2)) /\
  exec_all Debug pf0 (mkWorld rs_empty o0) xs0 = (tr0, w0) /\ proper_trace tr0 /\ no_renames xs0 /\
  In (HSlot 1) (additions tr0) /\ created_as tr0 (HSlot 1) "Tuesday".
Proof.
  split; [vm_compute; reflexivity|]. split; [eexists; vm_compute; reflexivity|]. split; [vm_compute; reflexivity|].
  split; [vm_compute; reflexivity|]. split; [exact xs0_runs|]. split; [exact tr0_proper|]. split; [exact xs0_no_renames|].
  split; [vm_compute; tauto|].
  exists (firstn 2 tr0), (OpNewSlot "Tuesday"), (skipn 3 tr0). split; [vm_compute; reflexivity|]. split; [|reflexivity].
  vm_compute. intuition discriminate.
Qed.
(** "Creating an object with a name no registered object has creates a new
    object" is false: after "Annabelle", chooser("Ann", ..) is Annabelle. *)
Definition xs_ann : list op := [OpNewChooser "Annabelle" [DInt 1]; OpAdd (HChooser 0); OpNewChooser "Ann" [DInt 2]; OpAdd (HChooser 0)].
Theorem C24_prefix_name_refuted :
  exists (xs : list op) (x : op), no_renames (xs ++ [x]) /\ asked_name x = Some "Ann" /\ fair_args x /\
    forall pr tr w, exec_all pr pf0 (mkWorld rs_empty o0) xs = (tr, w) -> proper_trace tr /\
      (forall h n, In h (additions tr) -> created_as tr h n -> n <> "Ann") /\
      exec pr pf0 w x = (Ok (Some (HChooser 0)), w) /\ In (HChooser 0) (issued tr).
Proof.
  exists (firstn 2 xs_ann), (OpNewChooser "Ann" [DInt 2]). split; [vm_compute; reflexivity|]. split; [reflexivity|]. split.
  { exists [2%N]. split; repeat constructor. unfold u32_max. lia. }
  intros pr tr w H. assert (E : exec_all pr pf0 (mkWorld rs_empty o0) (firstn 2 xs_ann) =
    ([(OpNewChooser "Annabelle" [DInt 1], Ok (Some (HChooser 0))); (OpAdd (HChooser 0), Ok (Some (HChooser 0)))],
     mkWorld (mkRState [] [] [(mkChooser "Annabelle" [1%N], true)] [] [] [0] []) o0)) by (destruct pr; vm_compute; reflexivity).
  rewrite E in H. injection H as <- <-. split; [apply proper_b_ok; vm_compute; reflexivity|]. split; [|split].
  - intros h n Hh Hc. assert (h = HChooser 0) by (vm_compute in Hh; intuition congruence). subst h.
    assert (C : created_as [(OpNewChooser "Annabelle" [DInt 1], Ok (Some (HChooser 0))); (OpAdd (HChooser 0), Ok (Some (HChooser 0)))] (HChooser 0) "Annabelle").
    { exists [], (OpNewChooser "Annabelle" [DInt 1]), [(OpAdd (HChooser 0), Ok (Some (HChooser 0)))]. cbn. auto. }
    rewrite (created_unique _ _ _ _ Hc C). discriminate.
  - destruct pr; vm_compute; reflexivity.
  - cbn. auto.
Qed.
Print Assumptions C24_prefix_name_refuted.

(** ** C25 *)
Theorem C25_registered_objects :
  forall (F : Type) (pr : profile) (pf : string -> option F) (o o' : settings F) (xs : list op) (fail : option string)
         (d : input_data) (tr : list event) (w : world F),
    exec_all pr pf (mkWorld rs_empty o) xs = (tr, w) -> proper_trace tr -> no_renames xs ->
    read_script pr pf o xs fail = (Ok d, o') ->
    (* no object was left unadded *)
    incl (issued tr) (additions tr) /\
    (* slots *)
    (exists ns, named tr (filter is_slot (additions tr)) ns /\ NoDup ns /\
       map sl_name (i_slots d) = match ns with [] => ["Generated Slot"] | _ => ns end) /\
    (* choosers *)
    (named tr (filter is_chooser (additions tr)) (map cs_name (i_choosers d)) /\ NoDup (map cs_name (i_choosers d))) /\
    (* choices: [ps] are the declarations, each taking as many places as it has parts *)
    (exists ps, Forall2 (declared_choice tr) (filter is_choice (additions tr)) ps /\ NoDup (map p_name ps) /\
       length (i_choices d) = first_index ps (length ps) /\
       forall i p, nth_error ps i = Some p ->
         exists ch, nth_error (i_choices d) (first_index ps i) = Some ch /\ ch_name ch = p_name p).
Proof.
  intros F pr pf o o' xs fail d tr w H HP HN HR.
  apply read_script_ok in HR as (tr' & w' & r & H' & Ep & _ & _ & Hr & Hu & Hb & _).
  rewrite H in H'. injection H' as <- <-. assert (RF := run_reader _ _ _ _ _ _ _ H HP HN Hr).
  destruct (built_names _ _ _ Hb) as (B1 & B2 & B3 & B4). destruct RF as [R1 R2 R3 R4 R5 R6].
  split; [eapply unused_false; eauto; eapply run_sinv; eauto|]. split; [|split].
  - exists (map sl_name (r_slots r)). split; [tauto|]. split; [tauto|]. rewrite B1. unfold build_slots. destruct (r_slots r); reflexivity.
  - rewrite B2. auto.
  - exists (r_choices r). split; auto. split; [tauto|]. auto.
Qed.
Print Assumptions C25_registered_objects.
Example C25_witness :
  exec_all Debug pf0 (mkWorld rs_empty o0) xs0 = (tr0, w0) /\ proper_trace tr0 /\ no_renames xs0 /\
  fst (read_script Debug pf0 o0 xs0 None) = Ok d0 /\
  additions tr0 = [HSlot 0; HSlot 1; HChoice 0; HChoice 1; HChoice 2; HChooser 0; HChooser 1; HChooser 2] /\
  map sl_name (i_slots d0) = ["Monday"; "Tuesday"] /\ map cs_name (i_choosers d0) = ["Ann"; "Bob"; "Cid"] /\
  map ch_name (i_choices d0) = ["Chess"; "~[2] Chess"; "Go"; "Bridge"].
Proof.
  split; [exact xs0_runs|]. split; [exact tr0_proper|]. split; [exact xs0_no_renames|]. split; [rewrite xs0_reads; reflexivity|].
  repeat split; vm_compute; reflexivity.
Qed.
(** With renaming, two choosers can end up with the same name. *)
Definition xs_dup : list op :=
  [OpNewChoice "Chess" [TgInt NMax 5]; OpAdd (HChoice 0);
   OpNewChooser "Ann" [DInt 1]; OpAdd (HChooser 0); OpNewChooser "Bob" [DInt 1]; OpAdd (HChooser 1); OpRename (HChooser 1) "Ann"].
Theorem C25_rename_refuted :
  exists (xs : list op), forall pr, exists d o', read_script pr pf0 o0 xs None = (Ok d, o') /\
    proper_trace (fst (exec_all pr pf0 (mkWorld rs_empty o0) xs)) /\ ~ NoDup (map cs_name (i_choosers d)).
Proof.
  exists xs_dup. intros pr. eexists (value T_Input.d1 (fst (read_script pr pf0 o0 xs_dup None))), o0.
  destruct pr; (split; [vm_compute; reflexivity|]; split; [apply proper_b_ok; vm_compute; reflexivity|];
    vm_compute; intros H; inversion H; subst; cbn in *; tauto).
Qed.
Print Assumptions C25_rename_refuted.
(** Renaming changes the name of that object and nothing else. *)
Theorem C25_renaming_changes_the_name_only :
  forall (F : Type) (pr : profile) (pf : string -> option F) (w w' : world F) (h : handle) (n : string) r,
    exec pr pf w (OpRename h n) = (Ok r, w') ->
    r = Some h /\ w_opts w' = w_opts w /\ rs_exprs (w_state w') = rs_exprs (w_state w) /\
    rs_slot_ids (w_state w') = rs_slot_ids (w_state w) /\ rs_choice_ids (w_state w') = rs_choice_ids (w_state w) /\
    rs_chooser_ids (w_state w') = rs_chooser_ids (w_state w) /\
    length (rs_slots (w_state w')) = length (rs_slots (w_state w)) /\
    length (rs_choices (w_state w')) = length (rs_choices (w_state w)) /\
    length (rs_choosers (w_state w')) = length (rs_choosers (w_state w)) /\
    (forall i old added, nth_error (rs_slots (w_state w)) i = Some (mkSlot old, added) ->
       nth_error (rs_slots (w_state w')) i = Some (mkSlot (if handle_eqb h (HSlot i) then n else old), added)) /\
    (forall i old lo hi parts opt added, nth_error (rs_choices (w_state w)) i = Some (mkProto old lo hi parts opt, added) ->
       nth_error (rs_choices (w_state w')) i = Some (mkProto (if handle_eqb h (HChoice i) then n else old) lo hi parts opt, added)) /\
    (forall i old prefs added, nth_error (rs_choosers (w_state w)) i = Some (mkChooser old prefs, added) ->
       nth_error (rs_choosers (w_state w')) i = Some (mkChooser (if handle_eqb h (HChooser i) then n else old) prefs, added)).
Proof.
  intros F pr pf w w' h n r H. cbn [exec] in H.
  apply keep_ok in H as [(h' & st & H & E & ->)|[(m & _ & E & _)|(_ & E & _)]]; try discriminate. injection E as ->. cbn [w_state w_opts].
  destruct h as [j|j|j]; cbn [do_rename] in H; apply bind_ok in H as (objs & Hr & H); injection H as <- <-;
    unfold rename in Hr; apply bind_ok in Hr as (ob & Hob & Hr); apply get_ok in Hob; apply set_ok in Hr as [Hj ->];
    cbn [rs_exprs rs_slot_ids rs_choice_ids rs_chooser_ids rs_slots rs_choices rs_choosers with_slots with_choices with_choosers handle_eqb];
    rewrite ?upd_length; repeat (split; [reflexivity|]).
  - split; [|split; auto]. intros i old added Hi. destruct (Nat.eqb_spec j i) as [-> |Hne].
    + rewrite nth_error_upd_same by auto. rewrite Hob in Hi. injection Hi as ->. reflexivity.
    + rewrite nth_error_upd_other by auto. exact Hi.
  - split; [auto|split; auto]. intros i old lo hi parts opt added Hi. destruct (Nat.eqb_spec j i) as [-> |Hne].
    + rewrite nth_error_upd_same by auto. rewrite Hob in Hi. injection Hi as ->. reflexivity.
    + rewrite nth_error_upd_other by auto. exact Hi.
  - split; [auto|split; auto]. intros i old prefs added Hi. destruct (Nat.eqb_spec j i) as [-> |Hne].
    + rewrite nth_error_upd_same by auto. rewrite Hob in Hi. injection Hi as ->. reflexivity.
    + rewrite nth_error_upd_other by auto. exact Hi.
Qed.
Print Assumptions C25_renaming_changes_the_name_only.
Example C25_renaming_witness : exists w', exec Debug pf0 w0 (OpRename (HChoice 0) "Draughts") = (Ok (Some (HChoice 0)), w') /\
  nth_error (rs_choices (w_state w0)) 0 = Some (mkProto "Chess" 1 2 2 false, true) /\
  nth_error (rs_choices (w_state w')) 0 = Some (mkProto "Draughts" 1 2 2 false, true).
Proof. eexists. split; [vm_compute; reflexivity|]. split; vm_compute; reflexivity. Qed.

(** ** C38 *)
Theorem C38_range_inclusive :
  forall (x y : Z) (i : nat) (z : Z), nth_error (range x y) i = Some z <-> z = (x + Z.of_nat i)%Z /\ (z <= y)%Z.
Proof. exact range_nth. Qed.
Print Assumptions C38_range_inclusive.
Theorem C38_slice_inclusive :
  forall (A : Type) (l : list A) (x y : Z),
  match slice l x y with
  | Ok r => ~ slice_bad l x y /\
            forall i a, nth_error r i = Some a <-> (x + Z.of_nat i <= slice_end l y)%Z /\ nth_error l (Z.to_nat x + i) = Some a
  | Err _ => slice_bad l x y
  | Panic => False
  end.
Proof. exact @slice_spec. Qed.
Print Assumptions C38_slice_inclusive.
Example C38_witness : range 3 6 = [3;4;5;6]%Z /\ range 3 2 = [] /\
  slice [10;20;30;40] 1 2 = Ok [20;30] /\ slice [10;20;30;40] 2 i64_max = Ok [30;40] /\ slice [10;20] 1 0 = Ok [] /\
  (exists m, slice [10;20] 0 2 = Err m).
Proof. repeat split; try (vm_compute; reflexivity). eexists; vm_compute; reflexivity. Qed.

(** ** C45.  Full statement: a creating call with integer tags stores exactly the
    written integers or is rejected.  Proved for integers of 32 bits and for all
    strings; every non-negative 32-bit value is accepted. *)
Theorem C45_tags_literal_partial :
  forall (n : string) (tags : list tag_arg) (ts : list tagged) (p : proto),
    Forall small_tag tags -> mmap eval_tag tags = Ok ts -> new_choice n ts = Ok p ->
    literally tags (mkProto n 1 1 1 false) p.
Proof. intros n tags ts p Hs H1 H2. eapply tags_literal; eauto. Qed.
Print Assumptions C45_tags_literal_partial.
Theorem C45_fair_tags_accepted :
  forall (n : string) (tags : list tag_arg), Forall fair_tag tags ->
    exists ts p, mmap eval_tag tags = Ok ts /\ new_choice n ts = Ok p /\ literally tags (mkProto n 1 1 1 false) p.
Proof.
  intros n tags H. destruct (tags_accepted tags (mkProto n 1 1 1 false) H) as (ts & p & H1 & H2). exists ts, p.
  split; auto. split; auto. eapply tags_literal; eauto. eapply Forall_impl; [|exact H]. apply fair_small.
Qed.
Print Assumptions C45_fair_tags_accepted.
Example C45_witness : Forall fair_tag [TgBounds 1 2; TgInt NParts 2; TgOptional true] /\
  new_choice "Chess" [mkTag TBounds [1;2]%Z; mkTag TParts [2]%Z; mkTag TOptional [1]%Z] = Ok (mkProto "Chess" 1 2 2 true) /\
  (exists m, new_choice "Chess" [tag_int NMin (-1)] = Err m).
Proof.
  split; [repeat constructor; cbn; unfold in_range, i32_max; lia|]. split; [reflexivity|]. eexists; vm_compute; reflexivity.
Qed.
(** Larger integers are cut to 32 bits: min(4294967297) is min(1). *)
Theorem C45_large_tag_refuted :
  eval_tag (TgInt NMin 4294967297) = Ok (mkTag TMin [1%Z]) /\
  new_choice "a" [mkTag TMin [1%Z]] = Ok (mkProto "a" 1 1 1 false) /\
  ~ literally [TgInt NMin 4294967297] (mkProto "a" 1 1 1 false) (mkProto "a" 1 1 1 false).
Proof.
  repeat split; try (vm_compute; reflexivity). intros H. inversion H as [|a t p q p' Hl Ht]; subst. inversion Ht; subst.
  cbn in Hl. destruct Hl as (n & Hn & E). injection E as <-. discriminate.
Qed.
Print Assumptions C45_large_tag_refuted.

(** ** C57: constraints refer to the objects they were written with.  Restricted
    like C02 (order relations have the slot size on the left; [strict = false]:
    attending an optional choice is only required if it is held). *)
Theorem C57_constraints_mean_their_handles_partial :
  forall (F : Type) (pr : profile) (pf : string -> option F) (o o' : settings F) (xs : list op) (fail : option string)
         (d : input_data) (tr : list event) (w : world F),
    exec_all pr pf (mkWorld rs_empty o) xs = (tr, w) -> proper_trace tr -> no_renames xs ->
    read_script pr pf o xs fail = (Ok d, o') ->
    exists ps, Forall2 (declared_choice tr) (filter is_choice (additions tr)) ps /\
      length (i_choices d) = first_index ps (length ps) /\
      forall S A, valid_solution d S A ->
      forall l rel rt, In (l, rel, rt) (constraints_of tr) ->
        (is_order rel = true -> exists j, l = OpSlotSize j) ->
        means tr ps false S A (l, rel, rt).
Proof.
  intros F pr pf o o' xs fail d tr w H HP HN HR.
  apply read_script_ok in HR as (tr' & w' & r & H' & Ep & _ & _ & Hr & Hu & Hb & _).
  rewrite H in H'. injection H' as <- <-. assert (RF := run_reader _ _ _ _ _ _ _ H HP HN Hr).
  destruct (built_names _ _ _ Hb) as (_ & _ & B3 & _).
  exists (r_choices r). split; [apply (rf_protos _ _ RF)|]. split; auto. intros S A V l rel rt Hc HO.
  destruct (Forall2_in_l _ _ _ _ (rf_exprs _ _ RF) Hc) as (e & He & Hs).
  eapply says_means; eauto. eapply T_Input.C02_declared_constraints_hold_partial; eauto.
  destruct Hs as (Hl & -> & _). intros E. destruct (HO E) as (j & ->). cbn in Hl. destruct Hl as (n & _ & ->). reflexivity.
Qed.
Print Assumptions C57_constraints_mean_their_handles_partial.
Definition S0 : scheduling := [Some 0; Some 1; Some 0; Some 1].
Definition A0 : assignment := [[2; 3]; [0; 1]; [2; 3]].
Example C57_witness :
  exec_all Debug pf0 (mkWorld rs_empty o0) xs0 = (tr0, w0) /\ proper_trace tr0 /\ no_renames xs0 /\
  fst (read_script Debug pf0 o0 xs0 None) = Ok d0 /\
  constraints_of tr0 = [(OpChoiceSlotPart 0 1, REq, OpSlot 1); (OpChooserChoices 0, RContains, OpChoice 1)] /\
  valid_solution d0 S0 A0.
Proof.
  split; [exact xs0_runs|]. split; [exact tr0_proper|]. split; [exact xs0_no_renames|]. split; [rewrite xs0_reads; reflexivity|].
  split; [vm_compute; reflexivity|].
  apply check_solution_ok; [apply fits_b_ok|apply wf_input_b_ok|]; vm_compute; reflexivity.
Qed.
(** A constraint is stored by name: renaming an object after using it makes the
    constraint disappear or apply to another object.  Here b and c exchange
    their names after b was required to be in slot t; a valid solution has c
    there. *)
Definition xs_ren : list op :=
  [OpNewSlot "s"; OpAdd (HSlot 0); OpNewSlot "t"; OpAdd (HSlot 1);
   OpNewChoice "b" [TgInt NMax 5]; OpAdd (HChoice 0); OpNewChoice "c" [TgInt NMax 5]; OpAdd (HChoice 1);
   OpNewChooser "Ann" [DInt 1; DInt 1]; OpAdd (HChooser 0);
   OpConstrain (OpChoiceSlot 0) REq (OpSlot 1);
   OpRename (HChoice 0) "x"; OpRename (HChoice 1) "b"; OpRename (HChoice 0) "c"].
Theorem C57_rename_refuted :
  exists (xs : list op) (l : operand) (rel : rel_kind) (rt : operand) (S : scheduling) (A : assignment),
  forall pr, exists d o',
    read_script pr pf0 o0 xs None = (Ok d, o') /\
    let tr := fst (exec_all pr pf0 (mkWorld rs_empty o0) xs) in
    proper_trace tr /\ In (l, rel, rt) (constraints_of tr) /\ valid_solution d S A /\ is_order rel = false /\
    forall ps, (forall p, In p ps -> copies p = 1) -> length ps = 2 -> ~ means tr ps false S A (l, rel, rt).
Proof.
  exists xs_ren, (OpChoiceSlot 0), REq, (OpSlot 1), [Some 0; Some 1], [[0; 1]]. intros pr.
  exists (value T_Input.d1 (fst (read_script pr pf0 o0 xs_ren None))), o0.
  split; [destruct pr; vm_compute; reflexivity|]. cbv zeta.
  split; [apply proper_b_ok; destruct pr; vm_compute; reflexivity|]. split; [destruct pr; vm_compute; auto|]. split.
  { destruct pr; (apply check_solution_ok; [apply fits_b_ok|apply wf_input_b_ok|]; vm_compute; reflexivity). }
  split; [reflexivity|]. intros ps Hps Hl [HM _]. destruct HM as [HM _].
  specialize (HM 0 0 1 0 1 (or_introl (conj eq_refl eq_refl)) eq_refl).
  assert (E : scheduled_in [Some 0; Some 1] 0 1).
  { apply HM; auto.
    - exists 0. split; [destruct pr; vm_compute; reflexivity|]. destruct ps as [|p ps]; [discriminate|].
      exists p. split; [reflexivity|]. rewrite (Hps p (or_introl eq_refl)). cbn. auto.
    - unfold slot_at. destruct pr; vm_compute; reflexivity. }
  discriminate.
Qed.
Print Assumptions C57_rename_refuted.

(** ** C58: reading a script never panics, within the limits of 32-bit values
    (a debug build also panics on a time of more than [i32::MAX] seconds). *)
Theorem C58_calls_never_panic_partial :
  forall (F : Type) (pr : profile) (pf : string -> option F) (o : settings F) (xs : list op) (tr : list event) (w : world F),
    exec_all pr pf (mkWorld rs_empty o) xs = (tr, w) -> proper_trace tr ->
    forall x, In (x, Panic) tr -> exists args, x = OpArgs args /\ pr = Debug.
Proof. exact @run_no_panic. Qed.
Print Assumptions C58_calls_never_panic_partial.
Theorem C58_reading_never_panics_partial :
  forall (F : Type) (pr : profile) (pf : string -> option F) (o : settings F) (xs : list op) (fail : option string)
         (tr : list event) (w : world F),
    exec_all pr pf (mkWorld rs_empty o) xs = (tr, w) -> proper_trace tr -> no_renames xs ->
    (forall l r z, In (l, r, OpInt z) (constraints_of tr) \/ In (OpInt z, r, l) (constraints_of tr) -> (z <= 4294967295)%Z) ->
    (forall ps, Forall2 (declared_choice tr) (filter is_choice (additions tr)) ps -> (Z.of_nat (first_index ps (length ps)) <= i32_max)%Z) ->
    (pr = Debug -> forall args, ~ In (OpArgs args, Panic) tr) ->
    fst (read_script pr pf o xs fail) <> Panic.
Proof. exact @read_no_panic. Qed.
Print Assumptions C58_reading_never_panics_partial.
Example C58_witness :
  exec_all Debug pf0 (mkWorld rs_empty o0) xs0 = (tr0, w0) /\ proper_trace tr0 /\ no_renames xs0 /\
  (forall l r z, In (l, r, OpInt z) (constraints_of tr0) \/ In (OpInt z, r, l) (constraints_of tr0) -> (z <= 4294967295)%Z) /\
  (forall args, ~ In (OpArgs args, Panic) tr0) /\ exists d, fst (read_script Debug pf0 o0 xs0 None) = Ok d.
Proof.
  split; [exact xs0_runs|]. split; [exact tr0_proper|]. split; [exact xs0_no_renames|]. split; [|split].
  - intros l r z [H|H]; vm_compute in H; repeat (destruct H as [H|H]; [discriminate|]); destruct H.
  - intros args H. assert (E : existsb panicked tr0 = true) by (apply existsb_exists; exists (OpArgs args, Panic); split; [exact H|reflexivity]).
    vm_compute in E. discriminate.
  - exists d0. rewrite xs0_reads. reflexivity.
Qed.
Theorem C58_huge_integer_refuted :
  exists xs, forall pr, no_renames xs /\ proper_trace (fst (exec_all pr pf0 (mkWorld rs_empty o0) xs)) /\
    fst (read_script pr pf0 o0 xs None) = Panic.
Proof.
  exists [OpNewSlot "s"; OpAdd (HSlot 0); OpNewChoice "a" []; OpAdd (HChoice 0); OpNewChooser "p" [DInt 0]; OpAdd (HChooser 0);
          OpConstrain (OpSlotSize 0) RLeq (OpInt 4294967296)].
  intros pr. split; [vm_compute; reflexivity|]. split; [apply proper_b_ok|]; destruct pr; vm_compute; reflexivity.
Qed.
Print Assumptions C58_huge_integer_refuted.

(** ** C59: a reader can be used again *)
Theorem C59_reads_are_independent :
  forall (F : Type) (pr : profile) (pf : string -> option F) (w w' : world F) (xs : list op) (fail : option string),
    fst (read_with pr pf w xs fail) = fst (read_with pr pf w' xs fail).
Proof. exact @read_indep. Qed.
Print Assumptions C59_reads_are_independent.
(** What a reader read before has no influence; a whole history of reads. *)
Fixpoint after {F} (pr : profile) (pf : string -> option F) (w : world F) (hist : list (list op * option string)) : world F :=
  match hist with
  | [] => w
  | (xs, fail) :: t => after pr pf (snd (read_with pr pf w xs fail)) t
  end.
Theorem C59_history_does_not_matter :
  forall (F : Type) (pr : profile) (pf : string -> option F) (o : settings F) (hist : list (list op * option string))
         (xs : list op) (fail : option string),
    fst (read_with pr pf (after pr pf (mkWorld rs_empty o) hist) xs fail) = fst (read_script pr pf o xs fail).
Proof.
  intros. unfold read_script. destruct (read_with pr pf (mkWorld rs_empty o) xs fail) as [r w] eqn:E. cbn [fst].
  rewrite (read_indep pr pf _ (mkWorld rs_empty o)), E. reflexivity.
Qed.
Print Assumptions C59_history_does_not_matter.
(** The options accumulate: after a read they are the options before, with the
    arguments of the successful set_arguments calls applied in order, whether or
    not the read succeeded. *)
Fixpoint accepted_args (tr : list event) : list string :=
  match tr with
  | (OpArgs args, Ok _) :: t => flat_map (fun d => match d with DStr s => [s] | _ => [] end) args ++ accepted_args t
  | _ :: t => accepted_args t
  | [] => []
  end.
Lemma applies_app {F} fl tm num (o : settings F) a o1 : applies fl tm num o a o1 -> forall b o2, applies fl tm num o1 b o2 -> applies fl tm num o (a ++ b) o2.
Proof.
  induction 1; intros b o2 Hb; cbn [app]; auto; subst;
    [eapply ap_input|eapply ap_output|eapply ap_any|eapply ap_exp|eapply ap_timeout|eapply ap_cs_timeout|eapply ap_no_cs
    |eapply ap_no_cs_simp|eapply ap_threads|eapply ap_neighbors|eapply ap_greedy|eapply ap_ignored]; eauto.
Qed.
Lemma strings_of ss : flat_map (fun d => match d with DStr s => [s] | _ => [] end) (map DStr ss) = ss.
Proof. induction ss; cbn; congruence. Qed.
Theorem C59_options_accumulate :
  forall (F : Type) (pr : profile) (pf : string -> option F) (w w' : world F) (xs : list op) (fail : option string)
         (r : outcome input_data),
    read_with pr pf w xs fail = (r, w') ->
    applies (fun v x => pf v = Some x) (fun v x => parse_time pr v = Ok x) (numeral u32_max)
      (w_opts w) (accepted_args (fst (exec_all pr pf (mkWorld rs_empty (w_opts w)) xs))) (w_opts w').
Proof.
  intros F pr pf w w' xs fail r H. unfold read_with in H.
  destruct (exec_all pr pf (mkWorld rs_empty (w_opts w)) xs) as [tr w1] eqn:E. cbn [fst].
  assert (w' = w1) by (destruct (existsb panicked tr); injection H as _ <-; auto). subst w1. clear H fail r.
  change (w_opts w) with (w_opts (mkWorld rs_empty (w_opts w))). revert E. generalize (mkWorld rs_empty (w_opts w)). clear w.
  intros w. revert w tr. induction xs as [|x xs IH]; intros w tr E; cbn [exec_all] in E.
  - injection E as <- <-. constructor.
  - destruct (exec pr pf w x) as [r w1] eqn:E1. destruct (exec_all pr pf w1 xs) as [t w2] eqn:E2. injection E as <- <-.
    apply IH in E2. apply exec_opts in E1. cbn [accepted_args].
    destruct x as [n|n ts|n ps|h|h n|l rl rt|args]; try (rewrite <- E1; exact E2).
    destruct r as [v|m|]; [|rewrite <- E1; exact E2..].
    destruct E1 as (ss & H1 & H2). apply all_strings_spec in H1. subst args. rewrite strings_of.
    eapply applies_app; [|exact E2]. eapply arg_loop_sound; eauto.
Qed.
Print Assumptions C59_options_accumulate.
Example C59_witness :
  fst (read_with Debug pf0 (after Debug pf0 (mkWorld rs_empty o0) [(xs_dup, None); (xs_ann, Some "stop")]) xs0 None) = Ok d0 /\
  w_state (after Debug pf0 (mkWorld rs_empty o0) [(xs_dup, None); (xs_ann, Some "stop")]) <> rs_empty /\
  accepted_args tr0 = ["-t"; "1m30s"; "--any"] /\
  w_opts (snd (read_with Debug pf0 (mkWorld rs_empty o0) xs0 (Some "thrown later"))) <> o0.
Proof. repeat split; try (vm_compute; reflexivity); vm_compute; discriminate. Qed.
