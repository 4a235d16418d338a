(** Property theorems about outputs, random helpers, log lines, progress bars and
    the command-line program: C26, C27, C31, C32, C36, C60, C61. *)
From Verif Require Import Base M_Data Spec M_Scoring P_Check M_Rng P_Rng M_Build M_Output Spec_Output P_Output1 P_Output2.
From Verif Require T_Input.
From Coq Require Import String Ascii.
Notation length := Datatypes.length.
Notation get := Base.get.
Open Scope string_scope.
Import ListNotations.
Open Scope list_scope.

Definition value {A} (d : A) (r : outcome A) : A := match r with Ok x => x | _ => d end.
Definition text_of (r : outcome string) : string := value "" r.

Lemma same_nth {A} (l : list A) : forall m, length l = length m -> (forall i, i < length l -> nth_error l i = nth_error m i) -> l = m.
Proof.
  induction l as [|x l IH]; intros [|y m] HL H; cbn in HL; try lia; auto. f_equal.
  - specialize (H 0 ltac:(cbn; lia)). cbn in H. congruence.
  - apply IH; [lia|]. intros i Hi. apply (H (Datatypes.S i)). cbn. lia.
Qed.

(** ** C26.  Full statement: for every solution with a scheduling the output is
    the table of that scheduling, and reading the text gives that table back.
    The first half is proved; reading back is proved when no name contains a
    quotation mark. *)
(** What is written for a scheduling, with or without an assignment. *)
Definition with_scheduling (sch : scheduling) (sol : solution) : Prop := sol = SolScheduling sch \/ exists A, sol = SolComplete sch A.
Theorem C26_scheduling_table_written :
  forall (d : input_data) (sch : scheduling) (sol : solution), with_scheduling sch sol ->
    (forall t, write_scheduling d sol = Ok t ->
       exists rows, scheduling_table d sch rows /\ t = table_text (["Choice"; "Slot"] :: rows)) /\
    (valid_scheduling d sch -> exists t, write_scheduling d sol = Ok t) /\
    (exists m, write_scheduling d SolInvalid = Err m).
Proof.
  intros d sch sol Hs. assert (E : sol_scheduling sol = Some sch) by (destruct Hs as [->|(A & ->)]; reflexivity).
  rewrite (write_scheduling_rows _ _ _ E). split; [|split; [|eexists; reflexivity]].
  - intros t H. apply bind_ok in H as (rows & Hr & H). injection H as <-. exists rows. split; auto. apply sched_rows_table; auto.
  - intros V. destruct (sched_rows_total d sch (vs_length _ _ V) (vs_range _ _ V)) as (rows & ->). cbn [bind]. eauto.
Qed.
Print Assumptions C26_scheduling_table_written.
Theorem C26_reads_back_partial :
  forall (d : input_data) (sch : scheduling) (sol : solution) (t : string), with_scheduling sch sol -> quote_free_names d ->
    write_scheduling d sol = Ok t ->
    exists rows, csv_read t = Some (["Choice"; "Slot"] :: rows) /\ scheduling_table d sch rows.
Proof.
  intros d sch sol t Hs Q H. destruct (C26_scheduling_table_written d sch sol Hs) as (H1 & _ & _). destruct (H1 _ H) as (rows & T & ->).
  exists rows. split; auto. apply csv_read_table; [discriminate|]. eapply scheduling_quote_free; eauto.
Qed.
Print Assumptions C26_reads_back_partial.
(** The text determines the scheduling. *)
Theorem C26_text_determines_scheduling_partial :
  forall (d : input_data) (s1 s2 : scheduling) (sol1 sol2 : solution) (t : string),
    with_scheduling s1 sol1 -> with_scheduling s2 sol2 -> length s1 = length (i_choices d) -> length s2 = length (i_choices d) ->
    quote_free_names d -> NoDup (map sl_name (i_slots d)) -> ~ In "not scheduled" (map sl_name (i_slots d)) ->
    write_scheduling d sol1 = Ok t -> write_scheduling d sol2 = Ok t -> s1 = s2.
Proof.
  intros d s1 s2 sol1 sol2 t W1 W2 L1 L2 Q ND NS H1 H2.
  destruct (C26_reads_back_partial _ _ _ _ W1 Q H1) as (rows & R1 & T1). destruct (C26_reads_back_partial _ _ _ _ W2 Q H2) as (rows' & R2 & T2).
  rewrite R1 in R2. injection R2 as <-. apply same_nth; [lia|]. intros c Hc.
  destruct (nth_error (i_choices d) c) as [ch|] eqn:E; [|apply nth_error_None in E; lia].
  destruct T1 as [_ T1]. destruct T2 as [_ T2].
  destruct (T1 _ _ E) as (n1 & x1 & A1 & _ & B1). destruct (T2 _ _ E) as (n2 & x2 & A2 & _ & B2).
  rewrite A1 in A2. injection A2 as <- <-.
  assert (X : forall s sl, nth_error (i_slots d) s = Some sl -> nth_error (map sl_name (i_slots d)) s = Some (sl_name sl))
    by (intros s sl Hs; rewrite nth_error_map, Hs; auto).
  assert (Y : forall s sl, nth_error (i_slots d) s = Some sl -> sl_name sl <> "not scheduled").
  { intros s sl Hs He. apply NS. rewrite <- He. eapply nth_error_In, X; eauto. }
  destruct B1 as [(s & sl & Hs & Hl & ->)|(Hs & ->)]; destruct B2 as [(s' & sl' & Hs' & Hl' & He)|(Hs' & He)].
  - unfold scheduled_in in *. rewrite Hs, Hs'. f_equal. f_equal.
    apply (proj1 (NoDup_nth_error _) ND).
    + apply nth_error_Some. rewrite (X _ _ Hl). discriminate.
    + rewrite (X _ _ Hl), (X _ _ Hl'). congruence.
  - exfalso. eapply Y; [exact Hl|exact He].
  - exfalso. eapply Y; [exact Hl'|]. symmetry. exact He.
  - unfold not_held in *. congruence.
Qed.
Print Assumptions C26_text_determines_scheduling_partial.
Definition yes_quote_free (s : string) : bool := forallb (fun c => negb (Ascii.eqb c dquote)) (list_ascii_of_string s).
Lemma yes_quote_free_ok s : yes_quote_free s = true -> quote_free s.
Proof. intros H Hi. unfold yes_quote_free in H. rewrite forallb_forall in H. specialize (H _ Hi). rewrite Ascii.eqb_refl in H. discriminate. Qed.
Lemma d1_quote_free : quote_free_names T_Input.d1.
Proof.
  split; [|split]; intros x Hx; apply yes_quote_free_ok; revert x Hx; apply Forall_forall; vm_compute; repeat constructor.
Qed.
Example C26_witness :
  valid_scheduling T_Input.d1 T_Input.S1 /\ quote_free_names T_Input.d1 /\
  csv_read (text_of (write_scheduling T_Input.d1 (SolComplete T_Input.S1 T_Input.A1))) =
    Some [["Choice"; "Slot"]; ["a"; "s1"]; ["[2] a"; "s2"]; ["b"; "s2"]; ["c"; "s1"]].
Proof. split; [exact (vsol_sched _ _ _ T_Input.d1_valid)|]. split; [exact d1_quote_free|]. vm_compute. reflexivity. Qed.

(** Quotation marks are not escaped: two accepted inputs with different numbers
    of choices have the same output. *)
Definition lf : string := String nl "".
Definition dq : string := String dquote "".
Definition r_two : reader := mkReader [mkSlot "x"] [mkProto "a" 0 5 1 false; mkProto "b" 0 5 1 false] [mkChooser "Ann" [0; 0]%N] [].
Definition r_one : reader := mkReader [mkSlot ("x" ++ dq ++ lf ++ dq ++ "b" ++ dq ++ ", " ++ dq ++ "x")] [mkProto "a" 0 5 1 false] [mkChooser "Ann" [0]%N] [].
Theorem C26_quotes_refuted :
  exists r r' : reader, forall pr, exists d d' sch sch' t,
    build_input pr r = Ok d /\ build_input pr r' = Ok d' /\ valid_scheduling d sch /\ valid_scheduling d' sch' /\
    length (i_choices d) <> length (i_choices d') /\
    write_scheduling d (SolScheduling sch) = Ok t /\ write_scheduling d' (SolScheduling sch') = Ok t.
Proof.
  exists r_two, r_one. intros pr.
  exists (value T_Input.d1 (build_input pr r_two)), (value T_Input.d1 (build_input pr r_one)), [Some 0; Some 0], [Some 0],
    (text_of (write_scheduling (value T_Input.d1 (build_input pr r_two)) (SolScheduling [Some 0; Some 0]))).
  destruct pr.
  all: split; [vm_compute; reflexivity|]; split; [vm_compute; reflexivity|].
  all: split; [apply check_scheduling_ok; [apply fits_b_ok; vm_compute; reflexivity|apply wf_input_b_ok; vm_compute; reflexivity|vm_compute; reflexivity]|].
  all: split; [apply check_scheduling_ok; [apply fits_b_ok; vm_compute; reflexivity|apply wf_input_b_ok; vm_compute; reflexivity|vm_compute; reflexivity]|].
  all: split; [vm_compute; discriminate|]; split; vm_compute; reflexivity.
Qed.
Print Assumptions C26_quotes_refuted.
(** A slot may be named "not scheduled", and a declared choice may start with the
    mark of generated parts. *)
Definition r_ns : reader := mkReader [mkSlot "not scheduled"] [mkProto "a" 0 5 1 true; mkProto "~a" 0 5 1 false] [mkChooser "Ann" [0; 0]%N] [].
Theorem C26_names_refuted :
  exists r : reader, forall pr, exists d, build_input pr r = Ok d /\ NoDup (map ch_name (i_choices d)) /\
    valid_scheduling d [None; Some 0] /\ valid_scheduling d [Some 0; Some 0] /\
    write_scheduling d (SolScheduling [None; Some 0]) = write_scheduling d (SolScheduling [Some 0; Some 0]) /\
    csv_read (text_of (write_scheduling d (SolScheduling [None; Some 0]))) =
      Some [["Choice"; "Slot"]; ["a"; "not scheduled"]; ["a"; "not scheduled"]].
Proof.
  exists r_ns. intros pr. exists (value T_Input.d1 (build_input pr r_ns)). destruct pr.
  all: split; [vm_compute; reflexivity|]; split; [vm_compute; repeat constructor; cbn; intuition discriminate|].
  all: split; [apply check_scheduling_ok; [apply fits_b_ok; vm_compute; reflexivity|apply wf_input_b_ok; vm_compute; reflexivity|vm_compute; reflexivity]|].
  all: split; [apply check_scheduling_ok; [apply fits_b_ok; vm_compute; reflexivity|apply wf_input_b_ok; vm_compute; reflexivity|vm_compute; reflexivity]|].
  all: split; vm_compute; reflexivity.
Qed.
Print Assumptions C26_names_refuted.

(** ** C27 *)
Theorem C27_assignment_table_written :
  forall (d : input_data) (sch : scheduling) (A : assignment), valid_solution d sch A ->
    exists rows, assignment_table d sch A rows /\
      write_assignment d (SolComplete sch A) = Ok (table_text (("Chooser" :: map sl_name (i_slots d)) :: rows)).
Proof. intros d sch A V. destruct (valid_assignment_written d sch A V) as (rows & H1 & H2). eauto. Qed.
Print Assumptions C27_assignment_table_written.
Theorem C27_incomplete_is_an_error :
  forall (d : input_data) (sol : solution) (sch : scheduling), sol = SolInvalid \/ sol = SolScheduling sch ->
    exists m, write_assignment d sol = Err m.
Proof. intros d sol sch [->| ->]; eexists; reflexivity. Qed.
Print Assumptions C27_incomplete_is_an_error.
Theorem C27_reads_back_partial :
  forall (d : input_data) (sch : scheduling) (A : assignment) (t : string), valid_solution d sch A -> quote_free_names d ->
    write_assignment d (SolComplete sch A) = Ok t ->
    exists rows, csv_read t = Some (("Chooser" :: map sl_name (i_slots d)) :: rows) /\ assignment_table d sch A rows.
Proof.
  intros d sch A t V Q H. destruct (C27_assignment_table_written d sch A V) as (rows & T & E).
  assert (Et : t = table_text (("Chooser" :: map sl_name (i_slots d)) :: rows)) by congruence. subst t.
  exists rows. split; auto. apply csv_read_table; [discriminate|]. eapply assignment_quote_free; eauto.
Qed.
Print Assumptions C27_reads_back_partial.
Example C27_witness :
  valid_solution T_Input.d1 T_Input.S1 T_Input.A1 /\ quote_free_names T_Input.d1 /\
  csv_read (text_of (write_assignment T_Input.d1 (SolComplete T_Input.S1 T_Input.A1))) =
    Some [["Chooser"; "s1"; "s2"]; ["Ann"; "c"; "b"]; ["Bob"; "a"; "[2] a"]; ["Cid"; "c"; "b"]].
Proof. split; [exact T_Input.d1_valid|]. split; [exact d1_quote_free|]. vm_compute. reflexivity. Qed.

(** ** C31 *)
Theorem C31_riffle_interleaves :
  forall (A : Type) (o : oracle) (t : nat) (l r : list A), fair o ->
    exists m, riffle_shuffle o t l r = Ok m /\ interleaving l r m.
Proof.
  intros A o t l r HF. destruct (riffle_shuffle_perm o t l r HF) as (m & H & _). exists m. split; auto.
  destruct (pattern_counts o t (length l) (length r) HF). eapply riffle_interleaves; eauto.
Qed.
Print Assumptions C31_riffle_interleaves.
Definition o_id : oracle := mkOracle (fun _ => 0%Z) (fun _ l => rev l) (fun _ => false).
Lemma o_id_fair : fair o_id.
Proof. constructor; intros; cbn; [unfold i32_min, i32_max; lia|apply Permutation.Permutation_rev]. Qed.
Example C31_witness : fair o_id /\ riffle_shuffle o_id 0 [1;2;3] [7;8] = Ok [7;8;1;2;3] /\ interleaving [1;2;3] [7;8] [1;7;2;8;3].
Proof. split; [exact o_id_fair|]. split; [vm_compute; reflexivity|]. repeat constructor. Qed.

(** ** C32 *)
Theorem C32_seeds_differ :
  forall seed s1 s2 : N, (seed < 2^64)%N -> (s1 < 2^64)%N -> (s2 < 2^64)%N -> s1 <> s2 ->
    mix_seed seed s1 <> mix_seed seed s2 /\ (mix_seed seed s1 < 2^64)%N.
Proof.
  intros seed s1 s2 Hs H1 H2 Hne. split; [|exact (mix_seed_lt seed s1 Hs)]. intros E. apply Hne. exact (mix_seed_inj seed s1 s2 H1 H2 Hs E).
Qed.
Print Assumptions C32_seeds_differ.
Example C32_witness : (1 < 2^64)%N /\ mix_seed 0 0 = 16294208416658607535%N /\ mix_seed 0 1 <> mix_seed 0 0.
Proof. repeat split; vm_compute; congruence. Qed.
(** Full statement: every draw with [min < max] gives a value of [min..max].
    Proved: it gives such a value whenever it gives one, and it does give one if
    the range has at most [i32::MAX] members. *)
Theorem C32_draw_in_range_partial :
  forall (pr : profile) (sample lo hi : Z),
    (i32_min <= sample <= i32_max)%Z -> (i32_min <= lo)%Z -> (hi <= i32_max)%Z -> (lo < hi)%Z ->
    (forall z, next_in_range pr sample lo hi = Ok z -> (lo <= z < hi)%Z) /\
    ((hi - lo <= i32_max)%Z -> exists z, next_in_range pr sample lo hi = Ok z).
Proof.
  intros pr sample lo hi HS HL HH HLH. split.
  - intros z H. eapply next_in_range_result; eauto.
  - intros Hw. destruct (next_in_range_ok pr sample lo hi HS HL HH HLH Hw) as (z & E & _). eauto.
Qed.
Print Assumptions C32_draw_in_range_partial.
Example C32_draw_witness : next_in_range Debug (-5) 0 3 = Ok 1%Z /\ next_in_range Release 7 (-2) 2 = Ok 1%Z.
Proof. split; vm_compute; reflexivity. Qed.
(** Every value of the range can be drawn. *)
Theorem C32_every_value_possible :
  forall (pr : profile) (lo hi z : Z), (i32_min <= lo)%Z -> (hi <= i32_max)%Z -> (hi - lo <= i32_max)%Z -> (lo <= z < hi)%Z ->
    exists sample, (i32_min <= sample <= i32_max)%Z /\ next_in_range pr sample lo hi = Ok z.
Proof.
  intros pr lo hi z HL HH Hw Hz. exists (z - lo)%Z. unfold i32_min, i32_max in *. split; [lia|].
  unfold next_in_range, i32_wrap, rem_euclid, i32_min, i32_max.
  destruct (Z.leb_spec (-2147483648) (hi - lo)); [|lia]. destruct (Z.leb_spec (hi - lo) 2147483647); [|lia]. cbn [andb bind].
  destruct (Z.eqb_spec (hi - lo) 0); [lia|]. destruct (Z.eqb_spec (hi - lo) (-1)); [lia|]. rewrite andb_false_r. cbn [bind].
  rewrite Z.abs_eq by lia. rewrite Z.mod_small by lia.
  replace (lo + (z - lo))%Z with z by lia.
  destruct (Z.leb_spec (-2147483648) z); [|lia]. destruct (Z.leb_spec z 2147483647); [|lia]. reflexivity.
Qed.
Print Assumptions C32_every_value_possible.
(** Wider ranges: a panic in debug builds, only part of the range in release builds. *)
Theorem C32_wide_range_refuted :
  next_in_range Debug 0 (-2147483648) 2147483647 = Panic /\
  (forall sample z, next_in_range Release sample (-2147483648) 2147483647 = Ok z -> z = (-2147483648)%Z).
Proof.
  split; [vm_compute; reflexivity|]. intros s z H. unfold next_in_range in H.
  change (i32_wrap Release (2147483647 - -2147483648)) with (@Ok Z (-1)%Z) in H. cbn [bind] in H. unfold rem_euclid in H.
  change (-1 =? 0)%Z with false in H. cbn iota in H. destruct (_ && _)%bool; [discriminate|]. cbn [bind] in H.
  change (Z.abs (-1)) with 1%Z in H. rewrite Z.mod_1_r in H. vm_compute in H. injection H as <-. reflexivity.
Qed.
Print Assumptions C32_wide_range_refuted.

(** ** C36 *)
(** What a user of the log writer does; [all_ok] tells whether every call
    reported success. *)
Inductive log_call := CWrite (b : list ascii) | CFlush.
Fixpoint log_calls (broken : nat -> bool) (cs : list log_call) (w : writer) : bool * writer :=
  match cs with
  | [] => (true, w)
  | c :: cs =>
    let (ok, w1) := match c with CWrite b => log_write broken b w | CFlush => log_flush broken w end in
    let (ok', w2) := log_calls broken cs w1 in (ok && ok', w2)
  end.
Definition bytes_of (cs : list log_call) : list ascii := flat_map (fun c => match c with CWrite b => b | CFlush => [] end) cs.
Lemma log_calls_writes broken chunks : forall w w', one_line (lw_buffer w) ->
  log_calls broken (map CWrite chunks) w = (true, w') ->
  exists ls, lw_lines w' = lw_lines w ++ ls /\ split_at_newlines (lw_buffer w ++ List.concat chunks) ls (lw_buffer w').
Proof.
  induction chunks as [|b bs IH]; intros w w' Ho H; cbn [map log_calls] in H.
  - injection H as <-. exists []. rewrite !app_nil_r. repeat split; auto.
  - destruct (log_write broken b w) as [ok w1] eqn:E1. destruct (log_calls broken (map CWrite bs) w1) as [ok' w2] eqn:E2.
    injection H as Hok <-. apply andb_true_iff in Hok as [-> ->].
    destruct (log_write_ok _ _ _ _ Ho E1) as (l1 & A1 & B1). destruct B1 as (X & Y & Z).
    destruct (IH _ _ Z E2) as (l2 & A2 & B2). exists (l1 ++ l2). rewrite A2, A1, app_assoc. split; auto.
    cbn [List.concat]. rewrite app_assoc. eapply split_extend; [split; [exact X|split; eauto]|exact B2].
Qed.
(** The printed lines are the lines of the bytes written, however they were cut
    into writes; the unfinished rest is printed by a flush. *)
Theorem C36_lines_independent_of_chunking :
  forall (broken : nat -> bool) (chunks : list (list ascii)) (w : writer),
    log_calls broken (map CWrite chunks) new_writer = (true, w) ->
    split_at_newlines (List.concat chunks) (lw_lines w) (lw_buffer w) /\
    (forall lines rest, split_at_newlines (List.concat chunks) lines rest -> lw_lines w = lines /\ lw_buffer w = rest) /\
    (forall w', log_flush broken w = (true, w') ->
       lw_buffer w' = [] /\ lw_lines w' = lw_lines w ++ match lw_buffer w with [] => [] | rest => [rest] end).
Proof.
  intros broken chunks w H. destruct (log_calls_writes broken chunks new_writer w ltac:(intros []) H) as (ls & E & S).
  cbn in E. subst ls. cbn [app lw_buffer new_writer] in S. split; auto. split.
  - intros lines rest S'. eapply split_unique; eauto.
  - intros w' H'. unfold log_flush in H'. destruct (lw_buffer w) as [|c t] eqn:Eb.
    + injection H' as <-. rewrite app_nil_r. auto.
    + unfold print_line in H'. cbn [lw_tries lw_buffer lw_lines] in H'. destruct (broken (lw_tries w)); [discriminate|].
      injection H' as <-. auto.
Qed.
Print Assumptions C36_lines_independent_of_chunking.
(** With flushes anywhere, no byte but the line breaks disappears. *)
Theorem C36_no_byte_lost :
  forall (broken : nat -> bool) (cs : list log_call) (w : writer), log_calls broken cs new_writer = (true, w) ->
    List.concat (lw_lines w) ++ lw_buffer w = filter (fun c => negb (Ascii.eqb c newline)) (bytes_of cs).
Proof.
  intros broken cs w H.
  assert (G : forall v, one_line (lw_buffer v) -> log_calls broken cs v = (true, w) ->
    List.concat (lw_lines w) ++ lw_buffer w = List.concat (lw_lines v) ++ lw_buffer v ++ printable (bytes_of cs)).
  { clear H. induction cs as [|c cs IH]; intros v Ho H; cbn [log_calls] in H.
    - injection H as <-. cbn. rewrite app_nil_r. auto.
    - destruct (match c with CWrite b => log_write broken b v | CFlush => log_flush broken v end) as [ok w1] eqn:E1.
      destruct (log_calls broken cs w1) as [ok' w2] eqn:E2. injection H as Hok <-. apply andb_true_iff in Hok as [-> ->].
      unfold bytes_of. cbn [flat_map]. fold (bytes_of cs). rewrite printable_app. destruct c as [b|].
      + destruct (log_write_ok _ _ _ _ Ho E1) as (l1 & A1 & B1). rewrite (IH w1 (proj2 (proj2 B1)) E2), A1.
        apply split_printable in B1. rewrite printable_app, (printable_one _ Ho) in B1. rewrite concat_app, <- !app_assoc. f_equal.
        rewrite (app_assoc (lw_buffer v)), B1, <- app_assoc. reflexivity.
      + unfold log_flush in E1. cbn [printable filter app]. destruct (lw_buffer v) as [|x t] eqn:Eb.
        * injection E1 as <-. rewrite (IH v) by (auto; rewrite Eb; auto). rewrite Eb. reflexivity.
        * unfold print_line in E1. cbn [lw_tries lw_buffer lw_lines] in E1. destruct (broken (lw_tries v)); [discriminate|].
          injection E1 as <-. match type of E2 with log_calls _ _ ?v' = _ => rewrite (IH v' ltac:(intros []) E2) end. cbn [lw_buffer lw_lines]. rewrite concat_app, <- app_assoc. cbn [List.concat]. rewrite app_nil_r. reflexivity. }
  rewrite (G new_writer); auto. intros [].
Qed.
Print Assumptions C36_no_byte_lost.
(** Every call succeeds while printing works. *)
Theorem C36_calls_succeed :
  forall (cs : list log_call) (w : writer), fst (log_calls (fun _ => false) cs w) = true.
Proof.
  induction cs as [|c cs IH]; intros w; cbn [log_calls]; auto.
  destruct (match c with CWrite b => log_write (fun _ => false) b w | CFlush => log_flush (fun _ => false) w end) as [ok w1] eqn:E.
  destruct (log_calls (fun _ => false) cs w1) as [ok' w2] eqn:E2. specialize (IH w1). rewrite E2 in IH. cbn in IH |- *. subst ok'.
  rewrite andb_true_r. destruct c as [b|].
  - pose proof (log_write_works b w) as X. rewrite E in X. exact X.
  - unfold log_flush in E. destruct (lw_buffer w); [injection E as <- _; auto|]. unfold print_line in E. injection E as <- _. auto.
Qed.
Print Assumptions C36_calls_succeed.
Definition b0 (s : string) : list ascii := list_ascii_of_string s.
Example C36_witness :
  log_calls (fun _ => false) (map CWrite [b0 "ab"; b0 ("c" ++ lf ++ lf ++ "de"); b0 ("f" ++ lf ++ "g")]) new_writer =
    (true, mkWriter (b0 "g") [b0 "abc"; b0 ""; b0 "def"] 3).
Proof. vm_compute. reflexivity. Qed.
(** A line whose printing fails is gone: the same bytes written again do not
    bring it back. *)
Theorem C36_failed_print_refuted :
  exists broken w, log_calls broken [CWrite (b0 ("a" ++ lf)); CFlush] new_writer = (false, w) /\ lw_lines w = [] /\ lw_buffer w = [].
Proof. exists (fun k => k =? 0)%nat. eexists. split; [vm_compute; reflexivity|]. split; reflexivity. Qed.
Print Assumptions C36_failed_print_refuted.

(** ** C60: the command-line program *)
(** Where a text goes: standard output (followed by an empty line) or a file named
    by the output option and the suffix. *)
Definition delivered (target : option string) (suffix text : string) : effect :=
  match target with
  | Some f => EFile (f ++ suffix) text
  | None => EPrint (text ++ lf ++ lf)
  end.
(** The input text: the files in order, each followed by a line break. *)
Fixpoint joined (texts : list string) : string :=
  match texts with [] => "" | t :: ts => (t ++ lf ++ joined ts)%string end.
Theorem C60_input_is_all_files :
  forall (O : Type) (inputs : O -> list string) (e : surroundings O) (o : O),
    (inputs o = [] -> forall s, env_stdin e = Some s -> read_input_string inputs e o = Ok s) /\
    (inputs o <> [] -> forall texts, map (env_file e) (inputs o) = map Some texts -> read_input_string inputs e o = Ok (joined texts)) /\
    (forall s, read_input_string inputs e o = Ok s ->
       (inputs o = [] /\ env_stdin e = Some s) \/ (exists texts, map (env_file e) (inputs o) = map Some texts /\ s = joined texts)).
Proof.
  intros O inputs e o.
  set (step := fun acc f => match env_file e f with Some s => Ok (acc ++ s ++ String nl "")%string | None => Err "file" end).
  assert (G : forall fs acc texts, map (env_file e) fs = map Some texts -> mfold step fs acc = Ok (acc ++ joined texts)%string).
  { induction fs as [|f fs IH]; intros acc [|t ts] H; cbn in H; try discriminate.
    - cbn. rewrite app_nil_s. auto.
    - injection H as Hf H. cbn [mfold]. unfold step at 1. rewrite Hf. cbn [bind]. rewrite (IH _ ts H). cbn [joined]. rewrite !app_assoc_s. auto. }
  assert (B : forall fs acc s, mfold step fs acc = Ok s -> exists texts, map (env_file e) fs = map Some texts).
  { induction fs as [|f fs IH]; intros acc s H; [exists []; auto|]. cbn [mfold] in H. apply bind_ok in H as (a & Ha & H).
    unfold step in Ha. destruct (env_file e f) as [t|] eqn:Ef; [|discriminate]. apply IH in H as (ts & H). exists (t :: ts). cbn. rewrite Ef, H. auto. }
  unfold read_input_string. split; [|split].
  - intros -> s ->. auto.
  - intros Hn texts H. destruct (inputs o) as [|f fs] eqn:E; [congruence|]. rewrite <- E in *. change (mfold step (inputs o) "" = Ok (joined texts)).
    rewrite (G _ _ _ H). reflexivity.
  - intros s H. destruct (inputs o) as [|f fs] eqn:E.
    + left. split; auto. destruct (env_stdin e); [injection H as ->; auto|discriminate].
    + right. rewrite <- E in *. change (mfold step (inputs o) "" = Ok s) in H. destruct (B _ _ _ H) as (texts & Ht). exists texts. split; auto.
      rewrite (G _ _ _ Ht) in H. injection H as <-. reflexivity.
Qed.
Print Assumptions C60_input_is_all_files.

(** Exit code 0: the input was read and solved, and either there is no solution
    and nothing was output, or the output is the scheduling table (if there is
    more than one slot) and the assignment table of the solution, at the places
    the options in force after reading the script name. *)
Theorem C60_success :
  forall (O : Type) (inputs : O -> list string) (output : O -> option string) (e : surroundings O) (o : O) (es : list effect),
    (forall text d o' sol, read_input_string inputs e o = Ok text -> env_read e o text = (Ok d, o') -> env_solve e o' d = Ok sol ->
       sol = SolInvalid \/ exists sch A, sol = SolComplete sch A /\ valid_solution d sch A) ->
    run inputs output e o = (Some 0, es) ->
    exists text d o' sol, read_input_string inputs e o = Ok text /\ env_read e o text = (Ok d, o') /\ env_solve e o' d = Ok sol /\
      ((sol = SolInvalid /\ es = []) \/
       exists sch A srows arows, sol = SolComplete sch A /\ valid_solution d sch A /\
         scheduling_table d sch srows /\ assignment_table d sch A arows /\
         es = (if (1 <? length (i_slots d))%nat then [delivered (output o') ".scheduling.csv" (table_text (["Choice"; "Slot"] :: srows))] else [])
              ++ [delivered (output o') ".assignment.csv" (table_text (("Chooser" :: map sl_name (i_slots d)) :: arows))]).
Proof.
  intros O inputs output e o es HV H. unfold run in H. destruct (read_input_string inputs e o) as [text| |] eqn:ER; try discriminate.
  destruct (try_run output e o text) as [r es'] eqn:ET. destruct r as [u|m|]; try discriminate. injection H as <-.
  unfold try_run in ET. destruct (env_read e o text) as [rd o'] eqn:ERD. destruct rd as [d|m|]; try discriminate.
  destruct (env_solve e o' d) as [sol|m|] eqn:ES; try discriminate. exists text, d, o', sol.
  split; auto. split; auto. split; auto. destruct (is_invalid sol) eqn:EI.
  { injection ET as <- <-. left. split; auto. destruct (HV _ _ _ _ eq_refl ERD ES) as [->|(sch & A & -> & V)]; [auto|discriminate]. }
  right. destruct (HV _ _ _ _ eq_refl ERD ES) as [->|(sch & A & -> & V)]; [discriminate|].
  destruct (env_score e o' d (SolComplete sch A)); try discriminate.
  destruct (C26_scheduling_table_written d sch (SolComplete sch A)) as (W1 & W2 & _); [right; eauto|].
  destruct (W2 (vsol_sched _ _ _ V)) as (st & Hst). destruct (W1 _ Hst) as (srows & T1 & ->).
  destruct (C27_assignment_table_written d sch A V) as (arows & T2 & Hat).
  exists sch, A, srows, arows. split; auto. split; auto. split; auto. split; auto.
  rewrite Hst, Hat in ET. cbn [bind] in ET. unfold output_string in ET. unfold delivered.
  destruct (1 <? length (i_slots d))%nat; destruct (output o') as [f|].
  - destruct (env_writable e (f ++ ".scheduling.csv")); [|discriminate]. destruct (env_writable e (f ++ ".assignment.csv")); [|discriminate].
    injection ET as <- <-. reflexivity.
  - injection ET as <- <-. reflexivity.
  - destruct (env_writable e (f ++ ".assignment.csv")); [|discriminate]. injection ET as <- <-. reflexivity.
  - injection ET as <- <-. reflexivity.
Qed.
Print Assumptions C60_success.

(** The program fails (exit code 1) only if the input cannot be read, is rejected,
    solving fails or a file cannot be written; then it has output nothing, except
    that the scheduling table may have been written before writing the assignment
    table failed. *)
Theorem C60_failure :
  forall (O : Type) (inputs : O -> list string) (output : O -> option string) (e : surroundings O) (o : O) (code : option nat) (es : list effect),
    (forall text d o' sol, read_input_string inputs e o = Ok text -> env_read e o text = (Ok d, o') -> env_solve e o' d = Ok sol ->
       sol = SolInvalid \/ exists sch A, sol = SolComplete sch A /\ valid_solution d sch A) ->
    run inputs output e o = (code, es) -> code <> Some 0 ->
    (es = [] \/ exists f t, es = [EFile (f ++ ".scheduling.csv") t] /\ env_writable e (f ++ ".assignment.csv") = false) /\
    (forall text d o' sol sc,
       read_input_string inputs e o = Ok text -> env_read e o text = (Ok d, o') -> env_solve e o' d = Ok sol -> env_score e o' d sol = Ok sc ->
       exists f, output o' = Some f /\ (env_writable e (f ++ ".scheduling.csv") = false \/ env_writable e (f ++ ".assignment.csv") = false)).
Proof.
  intros O inputs output e o code es HV H Hne. unfold run in H. destruct (read_input_string inputs e o) as [text| |] eqn:ER.
  2,3: injection H as <- <-; split; auto; intros; discriminate.
  destruct (try_run output e o text) as [r es'] eqn:ET. unfold try_run in ET. destruct (env_read e o text) as [rd o'] eqn:ERD.
  destruct rd as [d|m|].
  2,3: injection ET as <- <-; injection H as <- <-; split; [auto|intros ? ? ? ? ? E1 E2; injection E1 as <-; congruence].
  destruct (env_solve e o' d) as [sol|m|] eqn:ES.
  2,3: injection ET as <- <-; injection H as <- <-; split; [auto|intros ? ? ? ? ? E1 E2 E3; injection E1 as <-; rewrite ERD in E2; injection E2 as <- <-; congruence].
  destruct (is_invalid sol) eqn:EI; [injection ET as <- <-; injection H as <- <-; congruence|].
  destruct (HV _ _ _ _ eq_refl ERD ES) as [->|(sch & A & -> & V)]; [discriminate|].
  destruct (env_score e o' d (SolComplete sch A)) as [sc|m|] eqn:EC.
  2,3: injection ET as <- <-; injection H as <- <-; split; [auto|intros ? ? ? ? ? E1 E2 E3 E4; injection E1 as <-; rewrite ERD in E2; injection E2 as <- <-; congruence].
  destruct (C26_scheduling_table_written d sch (SolComplete sch A)) as (_ & W2 & _); [right; eauto|].
  destruct (W2 (vsol_sched _ _ _ V)) as (st & Hst). destruct (C27_assignment_table_written d sch A V) as (arows & T2 & Hat).
  rewrite Hst, Hat in ET. cbn [bind] in ET. unfold output_string in ET.
  destruct (output o') as [f|] eqn:EO.
  2: destruct (1 <? length (i_slots d))%nat; injection ET as <- <-; injection H as <- <-; congruence.
  assert (Y : (es = [] \/ exists f t, es = [EFile (f ++ ".scheduling.csv") t] /\ env_writable e (f ++ ".assignment.csv") = false) /\
              (env_writable e (f ++ ".scheduling.csv") = false \/ env_writable e (f ++ ".assignment.csv") = false)).
  { destruct (1 <? length (i_slots d))%nat.
    - destruct (env_writable e (f ++ ".scheduling.csv")); [|injection ET as <- <-; injection H as <- <-; auto].
      destruct (env_writable e (f ++ ".assignment.csv")) eqn:E2; injection ET as <- <-; injection H as <- <-; [congruence|]. split; auto. right. eauto.
    - destruct (env_writable e (f ++ ".assignment.csv")); injection ET as <- <-; injection H as <- <-; [congruence|auto]. }
  destruct Y as [Y1 Y2]. split; auto. intros ? ? ? ? ? E1 E2 E3 E4. injection E1 as <-. rewrite ERD in E2. injection E2 as <- <-. eauto.
Qed.
Print Assumptions C60_failure.
(** A run that writes both tables into files, one that prints them, and one that fails
    because the second file cannot be written. *)
Definition e60 (target : option string) (w : string -> bool) : surroundings (list string * option string) :=
  mkSurroundings (fun f => if String.eqb f "x" then Some "script" else None) None w
    (fun o _ => (Ok T_Input.d1, (fst o, target))) (fun _ _ => Ok (SolComplete T_Input.S1 T_Input.A1)) (fun _ _ _ => Ok score_infinite).
Definition o60 : list string * option string := (["x"; "x"], None).
Example C60_witness : forall target w,
  read_input_string fst (e60 target w) o60 = Ok ("script" ++ lf ++ "script" ++ lf)%string /\
  (forall text d o' sol, read_input_string fst (e60 target w) o60 = Ok text -> env_read (e60 target w) o60 text = (Ok d, o') ->
     env_solve (e60 target w) o' d = Ok sol -> sol = SolInvalid \/ exists sch A, sol = SolComplete sch A /\ valid_solution d sch A) /\
  (exists t1 t2, run fst snd (e60 (Some "out") (fun _ => true)) o60 =
     (Some 0, [EFile "out.scheduling.csv" t1; EFile "out.assignment.csv" t2])) /\
  (exists t1 t2, run fst snd (e60 None (fun _ => false)) o60 = (Some 0, [EPrint t1; EPrint t2])) /\
  (exists t1, run fst snd (e60 (Some "out") (String.eqb "out.scheduling.csv")) o60 = (Some 1, [EFile "out.scheduling.csv" t1])).
Proof.
  intros target w. split; [reflexivity|]. split.
  - intros text d o' sol _ H1 H2. cbn [env_read e60] in H1. cbn [env_solve e60] in H2. injection H1 as <- <-. injection H2 as <-.
    right. exists T_Input.S1, T_Input.A1. split; [reflexivity|exact T_Input.d1_valid].
  - split; [|split]; repeat eexists; vm_compute; reflexivity.
Qed.

(** ** C61: progress bars *)
(** Properly nested use of bars: a bar is dropped after all bars made later. *)
Inductive nested : status -> status -> Prop :=
| ne_nil st : nested st st
| ne_bar st h st1 st2 st3 : create_bar st = (h, st1) -> nested st1 st2 -> nested (drop_bar h st2) st3 -> nested st st3.
Theorem C61_active_bar_restored :
  forall st st' : status, nested st st' -> st_active st' = st_active st /\ st_output st' = st_output st.
Proof.
  induction 1 as [st|st h st1 st2 st3 HC H1 IH1 H2 IH2]; auto. destruct IH1 as [A1 O1]. destruct IH2 as [A2 O2].
  destruct (create_drop _ _ _ HC) as [O X]. destruct (X st2) as [Y Z]; [congruence|auto|]. split; congruence.
Qed.
Print Assumptions C61_active_bar_restored.
(** While output is on, log lines go to the innermost bar. *)
Theorem C61_innermost_bar_active :
  forall (st st1 st2 : status) (h : bar_handle), st_output st = true -> create_bar st = (h, st1) -> nested st1 st2 -> st_active st2 = Some (b_bar h).
Proof.
  intros st st1 st2 h Ho HC HN. destruct (C61_active_bar_restored _ _ HN) as [-> _]. unfold create_bar in HC. rewrite Ho in HC. injection HC as <- <-. reflexivity.
Qed.
Print Assumptions C61_innermost_bar_active.
Definition st0 : status := mkStatus true None 0.
Example C61_witness : nested st0 (mkStatus true None 3).
Proof.
  eapply ne_bar; [reflexivity| |].
  - eapply ne_bar; [reflexivity|apply ne_nil|]. eapply ne_bar; [reflexivity|apply ne_nil|]. apply ne_nil.
  - apply ne_nil.
Qed.
(** Dropping the older bar first leaves a dropped bar active. *)
Theorem C61_other_order_refuted :
  exists a b sa sb, create_bar st0 = (a, sa) /\ create_bar sa = (b, sb) /\ st_active st0 = None /\
    st_active (drop_bar b (drop_bar a sb)) = Some (b_bar a).
Proof. do 4 eexists. split; [reflexivity|]. split; [reflexivity|]. split; reflexivity. Qed.
Print Assumptions C61_other_order_refuted.
