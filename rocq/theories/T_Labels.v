(** Property theorems about the names in the output tables: C81. *)
From Verif Require Import Base M_Data Spec P_Scoring M_Scoring M_Names M_Build Spec_Input P_Compile P_Input M_Output Spec_Output P_Output1 Spec_Status P_Status
  Spec_Labels T_Output.
From Verif Require T_Input.
From Coq Require Import String Ascii DecimalString DecimalPos.
Notation length := Datatypes.length.
Notation get := Base.get.
Open Scope string_scope.
Import ListNotations.
Open Scope list_scope.

(** ** Decimal numbers *)
Lemma no_leading_zero p u : n_to_string (Npos p) <> String "0" u.
Proof.
  unfold n_to_string, z_to_string. cbn [Z.of_N Z.to_int NilZero.string_of_int].
  pose proof (DecimalPos.Unsigned.to_of (Pos.to_uint p)) as HT. rewrite DecimalPos.Unsigned.of_to in HT. cbn [N.to_uint] in HT.
  pose proof (DecimalPos.Unsigned.of_to p) as HO. pose proof (DecimalPos.Unsigned.to_uint_nonnil p) as HN.
  intros H. assert (X : exists v, Pos.to_uint p = Decimal.D0 v).
  { destruct (Pos.to_uint p) as [|v|v|v|v|v|v|v|v|v|v]; [tauto|eauto|..]; cbn in H; discriminate. }
  destruct X as (v & E). rewrite E in HT, HO. cbn [Pos.of_uint] in HO.
  assert (G : forall w, match Decimal.nzhead w with Decimal.D0 _ => False | _ => True end) by (induction w; cbn; auto).
  specialize (G v). unfold Decimal.unorm in HT. cbn [Decimal.nzhead] in HT.
  destruct (Decimal.nzhead v); try discriminate; [|tauto]. injection HT as ->. cbn in HO. discriminate.
Qed.
Lemma decimal_n k : decimal (k + 1) (n_to_string (N.of_nat (k + 1))).
Proof.
  split; [rewrite number_n; f_equal; lia|]. intros u. destruct (N.of_nat (k + 1)) as [|p] eqn:E; [lia|]. apply no_leading_zero.
Qed.
(** Digits only. *)
Lemma digits_no_bracket t : forall acc v, digits acc t = Some v -> forall a b, t <> (a ++ String "]" b)%string.
Proof.
  induction t as [|c t IH]; intros acc v H a b E; [destruct a; discriminate|].
  destruct a as [|x a]; cbn in E; injection E as -> ->.
  - cbn in H. discriminate.
  - cbn [digits] in H. destruct (_ && _)%Z in H; [|discriminate]. apply (IH _ _ H a b). reflexivity.
Qed.
Lemma number_no_bracket t v : number t = Some v -> forall a b, t <> (a ++ String "]" b)%string.
Proof. destruct t; [discriminate|]. apply digits_no_bracket. Qed.
Lemma split_bracket (a : string) : forall a' b b', (forall x y, a <> (x ++ String "]" y)%string) -> (forall x y, a' <> (x ++ String "]" y)%string) ->
  (a ++ String "]" b)%string = (a' ++ String "]" b')%string -> a = a' /\ b = b'.
Proof.
  induction a as [|c a IH]; intros [|c' a'] b b' H H' E; cbn in E.
  - injection E as ->. auto.
  - injection E as <- E. exfalso. apply (H' "" a'). reflexivity.
  - injection E as -> E. exfalso. apply (H "" a). reflexivity.
  - injection E as -> E. destruct (IH a' b b') as [-> ->]; auto.
    + intros x y Hx. apply (H (String c' x) y). cbn. rewrite Hx. auto.
    + intros x y Hx. apply (H' (String c' x) y). cbn. rewrite Hx. auto.
Qed.

(** ** Names of processed objects *)
Lemma part_label n k : label n k (strip_generated (if Nat.eqb k 0 then n else part_name k n)).
Proof.
  destruct (Nat.eqb_spec k 0) as [->|Hk].
  - left. split; auto. apply strip_shown.
  - right. split; [lia|]. exists (n_to_string (N.of_nat (k + 1))). split; [apply decimal_n|reflexivity].
Qed.
Lemma built_choice pr r d i k c q ch : build_input pr r = Ok d -> nth_error (r_choices r) i = Some q -> is_part (r_choices r) i k c ->
  nth_error (i_choices d) c = Some ch -> ch_name ch = if Nat.eqb k 0 then p_name q else part_name k (p_name q).
Proof.
  intros Hb Hq (q' & Hq' & Hk & ->) Hc. assert (q' = q) by congruence. subst q'.
  destruct (build_inv _ _ _ Hb) as (raw & cs & css & B). destruct (b_choice_nth _ _ _ _ _ _ B _ _ Hc) as (cd & Hcd & -> & _ & _).
  rewrite (blocks_nth _ 0 i k q Hq Hk) in Hcd. injection Hcd as <-. reflexivity.
Qed.
Lemma built_slots pr r d : build_input pr r = Ok d -> map sl_name (i_slots d) = slot_names r.
Proof.
  intros Hb. destruct (build_inv _ _ _ Hb) as (raw & cs & css & B). rewrite (bf_slots _ _ _ _ _ _ B). unfold build_slots, slot_names.
  destruct (r_slots r); reflexivity.
Qed.
Lemma built_length pr r d : build_input pr r = Ok d -> length (i_choices d) = first_index (r_choices r) (length (r_choices r)).
Proof.
  intros Hb. destruct (build_inv _ _ _ Hb) as (raw & cs & css & B). rewrite (b_choices_length _ _ _ _ _ _ B). apply blocks_length.
Qed.

(** ** C81 *)
Theorem C81_scheduling_table_names_the_parts :
  forall (pr : profile) (r : reader) (d : input_data) (sch : scheduling) (sol : solution) (t : string),
    build_input pr r = Ok d -> with_scheduling sch sol -> write_scheduling d sol = Ok t ->
    exists rows, t = table_text (["Choice"; "Slot"] :: rows) /\ schedule_rows r sch rows.
Proof.
  intros pr r d sch sol t Hb Hs H. destruct (C26_scheduling_table_written d sch sol Hs) as (H1 & _ & _).
  destruct (H1 _ H) as (rows & [L T] & ->). exists rows. split; auto. pose proof (built_length _ _ _ Hb) as LC. pose proof (built_slots _ _ _ Hb) as LS.
  split; [congruence|]. intros i k c q Hq Hp. pose proof (part_bound _ _ _ _ Hp) as Hc.
  destruct (nth_error (i_choices d) c) as [ch|] eqn:Ec; [|apply nth_error_None in Ec; lia].
  destruct (T _ _ Ec) as (nm & sn & Hr & Hn & Hsn). exists nm, sn. split; auto. split.
  - pose proof (built_choice _ _ _ _ _ _ _ _ Hb Hq Hp Ec) as En. rewrite En in Hn.
    rewrite (shown_unique _ _ _ Hn (strip_shown _)). apply part_label.
  - destruct Hsn as [(s & sl & Hss & Hsl & ->)|Hsn]; [left|right; auto]. exists s. split; auto.
    rewrite <- LS, nth_error_map, Hsl. reflexivity.
Qed.
Print Assumptions C81_scheduling_table_names_the_parts.

Theorem C81_assignment_table_names_the_parts :
  forall (pr : profile) (r : reader) (d : input_data) (sch : scheduling) (A : assignment),
    reader_u32 r -> build_input pr r = Ok d -> valid_solution d sch A ->
    exists rows, write_assignment d (SolComplete sch A) = Ok (table_text (("Chooser" :: slot_names r) :: rows)) /\
                 attendance_rows r sch A rows.
Proof.
  intros pr r d sch A HU Hb V. destruct (C27_assignment_table_written d sch A V) as (rows & [L T] & E).
  pose proof (built_length _ _ _ Hb) as LC. pose proof (built_slots _ _ _ Hb) as LS.
  destruct (build_inv _ _ _ Hb) as (raw & cs & css & B). destruct (b_prefs _ _ _ _ _ _ B HU) as (LP & HP).
  assert (LS' : length (slot_names r) = length (i_slots d)) by (rewrite <- LS, map_length; auto).
  exists rows. rewrite LS in E. split; auto. split; [congruence|]. intros p pc Hp.
  destruct (HP _ _ Hp) as (ch & Hch & En & _ & _). destruct (T _ _ Hch) as (cells & Hr & Lc & Hc).
  exists cells. rewrite <- En. split; auto. split; [congruence|]. intros s Hs. rewrite LS' in Hs.
  destruct (Hc s Hs) as (c & cd & nm & Ha & Hss & Hcd & Hcell & Hn).
  pose proof (nth_error_lt _ _ _ Hcd) as Hlt. rewrite LC in Hlt.
  destruct (part_exists _ _ Hlt) as (i & k & Hpart). pose proof Hpart as (q & Hq & _ & _).
  exists c, i, k, q, nm. split; auto. split; auto. split; auto. split; auto. split; auto.
  pose proof (built_choice _ _ _ _ _ _ _ _ Hb Hq Hpart Hcd) as Enm. rewrite Enm in Hn.
  rewrite (shown_unique _ _ _ Hn (strip_shown _)). apply part_label.
Qed.
Print Assumptions C81_assignment_table_names_the_parts.

(** With plain names a label belongs to one part only. *)
Theorem C81_labels_tell_parts_apart :
  forall (r : reader) (i j k l : nat) (q q' : proto) (t : string),
    plain_names r -> nth_error (r_choices r) i = Some q -> nth_error (r_choices r) j = Some q' ->
    label (p_name q) k t -> label (p_name q') l t -> i = j /\ k = l.
Proof.
  intros r i j k l q q' t [HD HN] Hq Hq' H H'.
  assert (X : forall q u, In q (r_choices r) -> shown (p_name q) u -> u = p_name q).
  { intros p u Hp [E|[E _]]; auto. exfalso. apply (proj1 (HN p u Hp)); auto. }
  pose proof (nth_error_In _ _ Hq) as Iq. pose proof (nth_error_In _ _ Hq') as Iq'.
  destruct H as [[-> H]|(Hk & num & [Hn _] & ->)]; destruct H' as [[-> H']|(Hl & num' & [Hn' _] & E)].
  - apply X in H, H'; auto. split; auto. apply (HD _ _ _ _ Hq Hq'). congruence.
  - apply X in H; auto. exfalso. rewrite E in H. cbn in H. eapply (proj2 (HN q _ Iq)). symmetry; exact H.
  - apply X in H'; auto. exfalso. cbn in H'. eapply (proj2 (HN q' _ Iq')). symmetry; exact H'.
  - cbn in E. injection E as E. apply split_bracket in E as [-> E]; [|eapply number_no_bracket; eauto..].
    injection E as E. split; [apply (HD _ _ _ _ Hq Hq'); auto|]. assert (Z.of_nat (k + 1) = Z.of_nat (l + 1)) by congruence. lia.
Qed.
Print Assumptions C81_labels_tell_parts_apart.

Example C81_witness :
  build_input Debug T_Input.r1 = Ok T_Input.d1 /\ reader_u32 T_Input.r1 /\ plain_names T_Input.r1 /\ valid_solution T_Input.d1 T_Input.S1 T_Input.A1 /\
  write_scheduling T_Input.d1 (SolComplete T_Input.S1 T_Input.A1) =
    Ok (table_text [["Choice"; "Slot"]; ["a"; "s1"]; ["[2] a"; "s2"]; ["b"; "s2"]; ["c"; "s1"]]) /\
  label "a" 11 "[12] a" /\ ~ label "a" 11 "[11] a".
Proof.
  split; [exact T_Input.r1_builds|]. split; [exact T_Input.r1_u32|]. split.
  { split.
    - intros i j q q' H H' E. destruct i as [|[|[|i]]], j as [|[|[|j]]]; cbn in H, H'; try reflexivity; try (destruct i; discriminate); try (destruct j; discriminate);
        injection H as <-; injection H' as <-; discriminate.
    - intros q t H. cbn in H. repeat (destruct H as [<-|H]; [split; discriminate|]). destruct H. }
  split; [exact T_Input.d1_valid|]. split; [vm_compute; reflexivity|]. split.
  - right. split; [lia|]. exists "12". split; [split; [reflexivity|discriminate]|reflexivity].
  - intros [[H _]|(_ & num & [Hn _] & E)]; [discriminate|]. cbn in E. injection E as E.
    apply (split_bracket "11" num " a" " a") in E as [<- _]; [discriminate| |eapply number_no_bracket; eauto].
    apply (number_no_bracket "11" 11%Z). reflexivity.
Qed.

(** Names that are not plain: a choice declared as "[2] a" is listed like the
    second part of "a". *)
Definition r81 : reader := mkReader [mkSlot "x"; mkSlot "y"] [mkProto "a" 0 5 2 true; mkProto "[2] a" 0 5 1 true] [mkChooser "Ann" [0; 0]%N] [].
Example C81_unplain_names :
  exists d, build_input Debug r81 = Ok d /\ valid_scheduling d [Some 0; Some 1; Some 0] /\
    write_scheduling d (SolScheduling [Some 0; Some 1; Some 0]) =
      Ok (table_text [["Choice"; "Slot"]; ["a"; "x"]; ["[2] a"; "y"]; ["[2] a"; "x"]]).
Proof.
  eexists. split; [vm_compute; reflexivity|]. split.
  - apply P_Check.check_scheduling_ok; [apply P_Check.fits_b_ok; vm_compute; reflexivity|apply P_Check.wf_input_b_ok; vm_compute; reflexivity|vm_compute; reflexivity].
  - vm_compute. reflexivity.
Qed.
