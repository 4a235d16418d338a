(** The CSV outputs. *)
From Verif Require Import Base M_Data Spec M_Scoring M_Output Spec_Output.
From Coq Require Import String Ascii.
Notation length := Datatypes.length.
Notation get := Base.get.
Open Scope string_scope.
Open Scope list_scope.

Lemma app_assoc_s (a b c : string) : ((a ++ b) ++ c)%string = (a ++ b ++ c)%string.
Proof. induction a as [|x a IH]; cbn; [auto|]. rewrite IH. auto. Qed.
Lemma app_nil_s (a : string) : (a ++ "")%string = a.
Proof. induction a as [|x a IH]; cbn; [auto|]. rewrite IH. auto. Qed.

(** ** Text of a table *)
Lemma quoted_cell s : quoted s = cell_text s. Proof. reflexivity. Qed.
Lemma join_cons sep x y t : join sep (x :: y :: t) = (x ++ sep ++ join sep (y :: t))%string. Proof. reflexivity. Qed.
Lemma row_cons c c' t : row_text (c :: c' :: t) = (cell_text c ++ ", " ++ row_text (c' :: t))%string. Proof. reflexivity. Qed.
Lemma table_cons r r' t : table_text (r :: r' :: t) = (row_text r ++ String newline (table_text (r' :: t)))%string. Proof. reflexivity. Qed.
Lemma join_row r : join ", " (map quoted r) = row_text r.
Proof. induction r as [|c [|c' t] IH]; auto. rewrite row_cons, <- IH. cbn [map]. rewrite join_cons. reflexivity. Qed.
Lemma join_table rows : join (String nl "") (map row_text rows) = table_text rows.
Proof. induction rows as [|r [|r' t] IH]; auto. rewrite table_cons, <- IH. cbn [map]. rewrite join_cons. reflexivity. Qed.

(** ** Reading it back *)
Lemma scan_inside s : quote_free s -> forall acc row rows rest,
  csv_scan (Inside acc) row rows (s ++ String dquote rest) = csv_scan Behind (row ++ [(acc ++ s)%string]) rows rest.
Proof.
  induction s as [|c s IH]; intros Hq acc row rows rest.
  - cbn [String.append]. cbn [csv_scan]. rewrite Ascii.eqb_refl, app_nil_s. auto.
  - change ((String c s ++ String dquote rest)%string) with (String c (s ++ String dquote rest)). cbn [csv_scan].
    destruct (Ascii.eqb_spec c dquote) as [->|Hne]; [exfalso; apply Hq; cbn; auto|].
    rewrite IH by (intros H; apply Hq; cbn; auto). rewrite app_assoc_s. reflexivity.
Qed.
Lemma scan_cell c row rows rest : quote_free c ->
  csv_scan Opening row rows (cell_text c ++ rest) = csv_scan Behind (row ++ [c]) rows rest.
Proof.
  intros H. unfold cell_text. change ((String dquote (c ++ String dquote "") ++ rest)%string) with (String dquote ((c ++ String dquote "") ++ rest)).
  cbn [csv_scan]. rewrite Ascii.eqb_refl, app_assoc_s. change ((String dquote "" ++ rest)%string) with (String dquote rest).
  rewrite scan_inside; auto.
Qed.
Lemma scan_row r : r <> [] -> Forall quote_free r -> forall row rows rest,
  csv_scan Opening row rows (row_text r ++ rest) = csv_scan Behind (row ++ r) rows rest.
Proof.
  induction r as [|c [|c' t] IH]; intros Hn HF row rows rest; [congruence| |].
  - inversion HF; subst. cbn [row_text]. apply scan_cell; auto.
  - inversion HF; subst. change (row_text (c :: c' :: t)) with (cell_text c ++ ", " ++ row_text (c' :: t))%string.
    rewrite !app_assoc_s, scan_cell by auto.
    change ((", " ++ row_text (c' :: t) ++ rest)%string) with (String "," (String " " (row_text (c' :: t) ++ rest))).
    cbn [csv_scan]. change (Ascii.eqb "," ",") with true. cbn [csv_scan]. change (Ascii.eqb " " " ") with true.
    rewrite IH by (auto; discriminate). rewrite <- app_assoc. reflexivity.
Qed.
Lemma scan_table t : t <> [] -> Forall (fun r => r <> [] /\ Forall quote_free r) t -> forall rows,
  csv_scan Opening [] rows (table_text t) = Some (rows ++ t).
Proof.
  induction t as [|r [|r' t] IH]; intros Hn HF rows; [congruence| |].
  - inversion HF as [|? ? [H1 H2]]; subst. cbn [table_text]. rewrite <- (app_nil_s (row_text r)), scan_row by auto. reflexivity.
  - inversion HF as [|? ? [H1 H2] HF']; subst.
    change (table_text (r :: r' :: t)) with (row_text r ++ String newline (table_text (r' :: t)))%string.
    rewrite scan_row by auto. cbn [app]. cbn [csv_scan].
    change (Ascii.eqb newline ",") with false. cbn [andb]. rewrite Ascii.eqb_refl. rewrite IH by (auto; discriminate).
    rewrite <- app_assoc. reflexivity.
Qed.
Lemma csv_read_table t : t <> [] -> Forall (fun r => r <> [] /\ Forall quote_free r) t -> csv_read (table_text t) = Some t.
Proof. intros H1 H2. unfold csv_read. rewrite scan_table; auto. Qed.

(** ** Names *)
Lemma strip_shown s : shown s (strip_generated s).
Proof.
  destruct s as [|c t]; cbn.
  - right. split; auto. discriminate.
  - destruct (Ascii.eqb_spec c "~") as [->|Hne]; [left; auto|]. right. split; auto. intros u E. injection E as -> _. congruence.
Qed.
Lemma shown_free s t : shown s t -> quote_free s -> quote_free t.
Proof. intros [->|[-> _]] H; auto. intros Hi. apply H. cbn. auto. Qed.
Lemma shown_unique s t u : shown s t -> shown s u -> t = u.
Proof.
  intros [H1|[-> H1]] [H2|[-> H2]]; subst; try congruence; try (exfalso; eapply H1; eauto; fail); try (exfalso; eapply H2; eauto; fail).
Qed.

(** ** Scheduling *)
Lemma mmap_nth {A B} (f : A -> outcome B) l r i a : mmap f l = Ok r -> nth_error l i = Some a -> exists b, nth_error r i = Some b /\ f a = Ok b.
Proof.
  revert r i. induction l as [|x l IH]; intros r i H Hi; [destruct i; discriminate|]. cbn [mmap] in H.
  apply bind_ok in H as (b & Hb & H). apply bind_ok in H as (t & Ht & H). injection H as <-.
  destruct i as [|i]; cbn in Hi; [injection Hi as ->; exists b; auto|]. eapply IH in Hi as (b' & H1 & H2); eauto.
Qed.
Lemma mmap_total {A B} (f : A -> outcome B) l : (forall a, In a l -> exists b, f a = Ok b) -> exists r, mmap f l = Ok r.
Proof.
  induction l as [|x l IH]; intros H; [exists []; auto|]. destruct (H x) as (b & Hb); [cbn; auto|].
  destruct IH as (r & Hr); [intros; apply H; cbn; auto|]. exists (b :: r). cbn [mmap]. rewrite Hb. cbn [bind]. rewrite Hr. auto.
Qed.
Lemma mmap_compose {A B C} (f : A -> outcome B) (g : B -> C) l : mmap (fun a => let* b := f a in Ok (g b)) l = let* r := mmap f l in Ok (map g r).
Proof.
  induction l as [|x l IH]; [reflexivity|]. cbn [mmap]. rewrite IH. destruct (f x); auto. cbn [bind]. destruct (mmap f l); auto.
Qed.
Lemma nth_enum {A} (l : list A) : forall k i, nth_error (combine (seq k (length l)) l) i = option_map (fun a => (k + i, a)) (nth_error l i).
Proof.
  induction l as [|x l IH]; intros k [|i]; cbn; auto; [f_equal; f_equal; lia|]. rewrite IH. destruct (nth_error l i); cbn; auto. f_equal. f_equal. lia.
Qed.

(** One row of the scheduling table. *)
Definition sched_row (d : input_data) (sch : scheduling) (ic : nat * choice_data) : outcome (list string) :=
  let (i, c) := ic in
  let* slot := slot_of sch i in
  let* slot_name := match slot with Some s => let* sl := get (i_slots d) s in Ok (sl_name sl) | None => Ok "not scheduled" end in
  Ok [strip_generated (ch_name c); slot_name].
Lemma write_scheduling_rows d sol sch : sol_scheduling sol = Some sch ->
  write_scheduling d sol =
  let* rows := mmap (sched_row d sch) (combine (seq 0 (length (i_choices d))) (i_choices d)) in
  Ok (table_text (["Choice"; "Slot"] :: rows)).
Proof.
  intros Hs. unfold write_scheduling. rewrite Hs.
  transitivity (let* r := (let* rows := mmap (sched_row d sch) (combine (seq 0 (length (i_choices d))) (i_choices d)) in Ok (map row_text rows)) in
                Ok (join (String nl "") ((quoted "Choice" ++ ", " ++ quoted "Slot")%string :: r))).
  - f_equal. rewrite <- mmap_compose. generalize (combine (seq 0 (length (i_choices d))) (i_choices d)) as l.
    induction l as [|[i c] l IH]; [reflexivity|]. cbn [mmap]. rewrite IH. f_equal. unfold sched_row.
    destruct (slot_of sch i) as [[s|]| |]; cbn [bind]; auto. destruct (get (i_slots d) s); cbn [bind]; auto.
  - destruct (mmap (sched_row d sch) _) as [rows| |]; cbn [bind]; auto. f_equal. rewrite <- join_table. reflexivity.
Qed.
Lemma sched_rows_table d sch rows : mmap (sched_row d sch) (combine (seq 0 (length (i_choices d))) (i_choices d)) = Ok rows ->
  scheduling_table d sch rows.
Proof.
  intros H. split.
  - apply mmap_length in H. rewrite H, combine_length, seq_length. lia.
  - intros c ch Hc. assert (Hn := nth_enum (i_choices d) 0 c). rewrite Hc in Hn. cbn in Hn.
    destruct (mmap_nth _ _ _ _ _ H Hn) as (row & Hr & Hf). unfold sched_row in Hf.
    apply bind_ok in Hf as (slot & Hs & Hf). apply bind_ok in Hf as (sn & Hsn & Hf). injection Hf as <-.
    exists (strip_generated (ch_name ch)), sn. split; auto. split; [apply strip_shown|].
    unfold slot_of in Hs. apply get_ok in Hs. destruct slot as [s|].
    + left. apply bind_ok in Hsn as (sl & Hsl & E). injection E as <-. apply get_ok in Hsl. exists s, sl. auto.
    + right. injection Hsn as <-. auto.
Qed.
Lemma sched_rows_total d sch : length sch = length (i_choices d) -> (forall c s, scheduled_in sch c s -> s < length (i_slots d)) ->
  exists rows, mmap (sched_row d sch) (combine (seq 0 (length (i_choices d))) (i_choices d)) = Ok rows.
Proof.
  intros HL HR. apply mmap_total. intros [i c] Hin. apply In_nth_error in Hin as (k & Hk). rewrite nth_enum in Hk.
  destruct (nth_error (i_choices d) k) as [c'|] eqn:E; [|discriminate]. cbn in Hk. injection Hk as <- <-.
  assert (k < length sch) by (rewrite HL; apply nth_error_Some; congruence).
  unfold sched_row, slot_of, get at 1. destruct (nth_error sch k) as [[s|]|] eqn:Es; cbn [bind]; [| |apply nth_error_None in Es; lia].
  - assert (Hs := HR _ _ Es). unfold get. destruct (nth_error (i_slots d) s) eqn:El; cbn [bind]; [eauto|]. apply nth_error_None in El. lia.
  - eauto.
Qed.
Lemma no_quote_header : Forall quote_free ["Choice"; "Slot"].
Proof. repeat constructor; unfold quote_free, dquote; cbn; intuition discriminate. Qed.
Lemma scheduling_quote_free d sch rows : quote_free_names d -> scheduling_table d sch rows -> Forall (fun r => r <> [] /\ Forall quote_free r) (["Choice"; "Slot"] :: rows).
Proof.
  intros (Q1 & Q2 & Q3) [HL HT]. constructor; [split; [discriminate|exact no_quote_header]|]. apply Forall_forall. intros r Hr.
  apply In_nth_error in Hr as (c & Hc).
  destruct (nth_error (i_choices d) c) as [ch|] eqn:E.
  - destruct (HT _ _ E) as (nm & sn & H1 & H2 & H3). rewrite Hc in H1. injection H1 as ->. split; [discriminate|].
    repeat constructor.
    + eapply shown_free; eauto. apply Q1. eapply nth_error_In; eauto.
    + destruct H3 as [(s & sl & _ & Hs & ->)|(_ & ->)]; [apply Q2; eapply nth_error_In; eauto|].
      unfold quote_free, dquote; cbn; intuition discriminate.
  - apply nth_error_None in E. assert (c < length rows) by (apply nth_error_Some; congruence). lia.
Qed.

(** ** Assignment *)
Definition asg_row (d : input_data) (sch : scheduling) (A : assignment) (p : nat) : outcome (list string) :=
  let* choices := choices_by_slot d sch A p in
  let* pn := get (i_choosers d) p in
  let* cells := mmap (fun c => let* ch := get (i_choices d) c in Ok (strip_generated (ch_name ch))) (firstn (length (i_slots d)) choices) in
  Ok (cs_name pn :: cells).
Lemma mmap_ext {A B} (f g : A -> outcome B) l : (forall a, f a = g a) -> mmap f l = mmap g l.
Proof. intros H. induction l as [|x l IH]; auto. cbn [mmap]. rewrite H, IH. auto. Qed.
Lemma write_assignment_rows d sch A :
  write_assignment d (SolComplete sch A) =
  let* rows := mmap (asg_row d sch A) (seq 0 (length (i_choosers d))) in
  Ok (table_text (("Chooser" :: map sl_name (i_slots d)) :: rows)).
Proof.
  unfold write_assignment. cbn [sol_scheduling sol_assignment].
  transitivity (let* r := (let* rows := mmap (asg_row d sch A) (seq 0 (length (i_choosers d))) in Ok (map row_text rows)) in
                Ok (join (String nl "") (join ", " (quoted "Chooser" :: map (fun s => quoted (sl_name s)) (i_slots d)) :: r))).
  - f_equal. rewrite <- mmap_compose. apply mmap_ext. intros p. unfold asg_row.
    destruct (choices_by_slot d sch A p) as [cs| |]; cbn [bind]; auto. destruct (get (i_choosers d) p) as [pn| |]; cbn [bind]; auto.
    rewrite (mmap_ext _ (fun c => let* t := (let* ch := get (i_choices d) c in Ok (strip_generated (ch_name ch))) in Ok (quoted t))).
    + rewrite (mmap_compose _ quoted). destruct (mmap _ _) as [cells| |]; cbn [bind]; auto. f_equal. rewrite <- join_row. reflexivity.
    + intros c. destruct (get (i_choices d) c); auto.
  - destruct (mmap (asg_row d sch A) _) as [rows| |]; cbn [bind]; auto. f_equal. rewrite <- join_table. cbn [map].
    f_equal. f_equal. rewrite <- join_row. cbn [map]. rewrite map_map. reflexivity.
Qed.

(** For a valid row every column gets the choice held there. *)
Definition step_choice (sch : scheduling) (A : assignment) (p : nat) (choices : list nat) (s : nat) : outcome (list nat) :=
  let* c := choice_of A p s in
  let* x := slot_of sch c in
  match x with None => Err "assignment output referenced an unscheduled choice" | Some t => set choices t c end.
Lemma fold_choices sch A p row n : nth_error A p = Some row -> length row = n ->
  (forall c, In c row -> held sch c) -> (forall c s, In c row -> scheduled_in sch c s -> s < n) ->
  forall m k v, k + m = n -> length v = n ->
  (forall t, t < n -> (exists i, i < k /\ exists c, nth_error row i = Some c /\ scheduled_in sch c t) ->
             exists c, nth_error v t = Some c /\ In c row /\ scheduled_in sch c t) ->
  exists v', mfold (step_choice sch A p) (seq k m) v = Ok v' /\ length v' = n /\
    forall t, t < n -> (exists c, In c row /\ scheduled_in sch c t) -> exists c, nth_error v' t = Some c /\ In c row /\ scheduled_in sch c t.
Proof.
  intros HA HL HH HR. induction m as [|m IH]; intros k v Hk Hv HI.
  - exists v. cbn. split; auto. split; auto. intros t Ht (c & Hc & Hs). apply HI; auto.
    apply In_nth_error in Hc as (i & Hi). exists i. split; eauto. assert (i < length row) by (apply nth_error_Some; congruence). lia.
  - cbn [seq mfold]. assert (Hr : k < length row) by lia. destruct (nth_error row k) as [c|] eqn:Ec; [|apply nth_error_None in Ec; lia].
    assert (Hin : In c row) by (eapply nth_error_In; eauto). destruct (HH _ Hin) as (t & Ht). assert (Htn := HR _ _ Hin Ht).
    assert (E : step_choice sch A p v k = Ok (upd v t c)).
    { unfold step_choice, choice_of, slot_of, get. rewrite HA. cbn [bind]. rewrite Ec. cbn [bind].
      unfold scheduled_in in Ht. rewrite Ht. cbn [bind]. unfold set. destruct (Nat.ltb_spec t (length v)); [auto|lia]. }
    rewrite E. cbn [bind]. apply IH; [lia|rewrite upd_length; auto|].
    intros u Hu (i & Hi & c' & Hc' & Hs'). destruct (Nat.eq_dec t u) as [->|Hne].
    + exists c. rewrite nth_error_upd_same by lia. auto.
    + rewrite nth_error_upd_other by auto. apply HI; auto. exists i. split; eauto.
      assert (i <> k); [|lia]. intros ->. rewrite Ec in Hc'. injection Hc' as <-. unfold scheduled_in in *. congruence.
Qed.
Lemma valid_choices d sch A p row : valid_solution d sch A -> nth_error A p = Some row ->
  exists v, choices_by_slot d sch A p = Ok v /\ length v = length (i_slots d) /\
    forall t, t < length (i_slots d) -> exists c, nth_error v t = Some c /\ In c row /\ scheduled_in sch c t.
Proof.
  intros V HA. destruct V as [VS VR]. destruct (ra_one _ _ _ VR) as [_ H1]. destruct (H1 _ _ HA) as (HL & HH & HU).
  destruct (fold_choices sch A p row (length (i_slots d)) HA HL HH) with (m := length (i_slots d)) (k := 0) (v := repeat 0 (length (i_slots d)))
    as (v & Hv & Hl & Ht); auto.
  - intros c s _ Hs. eapply vs_range; eauto.
  - apply repeat_length.
  - intros t _ (i & Hi & _). lia.
  - exists v. split; [exact Hv|]. split; auto. intros t Ht'. apply Ht; auto. destruct (HU _ Ht') as (c & [Hc Hs] & _). eauto.
Qed.
Lemma valid_choice_lt d sch A p c : valid_solution d sch A -> attends A p c -> c < length (i_choices d).
Proof.
  intros [VS VR] (row & Hr & Hc). destruct (ra_one _ _ _ VR) as [_ H1]. destruct (H1 _ _ Hr) as (_ & HH & _).
  destruct (HH _ Hc) as (s & Hs). rewrite <- (vs_length _ _ VS). apply nth_error_Some. unfold scheduled_in in Hs. congruence.
Qed.
Lemma asg_row_valid d sch A p : valid_solution d sch A -> p < length (i_choosers d) -> exists pc cells,
  nth_error (i_choosers d) p = Some pc /\ asg_row d sch A p = Ok (cs_name pc :: cells) /\ length cells = length (i_slots d) /\
  forall s, s < length (i_slots d) ->
    exists c ch nm, attends A p c /\ scheduled_in sch c s /\ nth_error (i_choices d) c = Some ch /\ nth_error cells s = Some nm /\ shown (ch_name ch) nm.
Proof.
  intros V Hp. destruct (ra_one _ _ _ (vsol_rest _ _ _ V)) as [HL _].
  destruct (nth_error A p) as [row|] eqn:Er; [|apply nth_error_None in Er; lia].
  destruct (valid_choices _ _ _ _ _ V Er) as (v & Hv & Hl & Ht).
  destruct (nth_error (i_choosers d) p) as [pc|] eqn:Ep; [|apply nth_error_None in Ep; lia]. exists pc.
  assert (Hf : firstn (length (i_slots d)) v = v) by (rewrite <- Hl; apply firstn_all).
  destruct (mmap_total (fun c => let* ch := get (i_choices d) c in Ok (strip_generated (ch_name ch))) v) as (cells & Hc).
  { intros c Hc. apply In_nth_error in Hc as (t & Hc).
    assert (Htl : t < length (i_slots d)) by (rewrite <- Hl; apply nth_error_Some; congruence).
    destruct (Ht _ Htl) as (c' & Hc' & Hin & _). rewrite Hc in Hc'. injection Hc' as <-.
    assert (Hlt := valid_choice_lt _ _ _ _ _ V (ex_intro _ row (conj Er Hin))). unfold get.
    destruct (nth_error (i_choices d) c) as [ch|] eqn:E; cbn [bind]; [eauto|]. apply nth_error_None in E. lia. }
  exists cells. split; auto. split.
  { unfold asg_row. rewrite Hv. cbn [bind]. unfold get at 1. rewrite Ep. cbn [bind]. rewrite Hf, Hc. reflexivity. }
  split; [apply mmap_length in Hc; lia|]. intros s Hs. destruct (Ht _ Hs) as (c & Hvc & Hin & Hsc).
  destruct (mmap_nth _ _ _ _ _ Hc Hvc) as (nm & Hn & Hg). apply bind_ok in Hg as (ch & Hg & E). injection E as <-. apply get_ok in Hg.
  exists c, ch, (strip_generated (ch_name ch)). split; [exists row; auto|]. repeat split; auto. apply strip_shown.
Qed.
Lemma valid_assignment_written d sch A : valid_solution d sch A ->
  exists rows, write_assignment d (SolComplete sch A) = Ok (table_text (("Chooser" :: map sl_name (i_slots d)) :: rows)) /\
    assignment_table d sch A rows.
Proof.
  intros V. rewrite write_assignment_rows.
  destruct (mmap_total (asg_row d sch A) (seq 0 (length (i_choosers d)))) as (rows & Hr).
  { intros p Hp. apply in_seq in Hp. destruct (asg_row_valid _ _ _ p V ltac:(lia)) as (pc & cells & _ & H & _). eauto. }
  exists rows. rewrite Hr. split; auto. split; [apply mmap_length in Hr; rewrite seq_length in Hr; auto|].
  intros p pc Hp. assert (Hl : p < length (i_choosers d)) by (apply nth_error_Some; congruence).
  assert (Hs : nth_error (seq 0 (length (i_choosers d))) p = Some p).
  { rewrite (nth_error_nth' _ 0) by (rewrite seq_length; auto). rewrite seq_nth by auto. auto. }
  destruct (mmap_nth _ _ _ _ _ Hr Hs) as (row & Hrow & Hf).
  destruct (asg_row_valid _ _ _ p V Hl) as (pc' & cells & Hp' & H & HL & HC). rewrite Hp in Hp'. injection Hp' as <-.
  rewrite H in Hf. injection Hf as <-. exists cells. auto.
Qed.
Lemma assignment_quote_free d sch A rows : quote_free_names d -> assignment_table d sch A rows ->
  Forall (fun r => r <> [] /\ Forall quote_free r) (("Chooser" :: map sl_name (i_slots d)) :: rows).
Proof.
  intros (Q1 & Q2 & Q3) [HL HT]. constructor.
  - split; [discriminate|]. constructor; [unfold quote_free, dquote; cbn; intuition discriminate|].
    apply Forall_forall. intros s Hs. apply in_map_iff in Hs as (sl & <- & Hsl). auto.
  - apply Forall_forall. intros r Hr. apply In_nth_error in Hr as (p & Hp).
    destruct (nth_error (i_choosers d) p) as [pc|] eqn:E.
    + destruct (HT _ _ E) as (cells & H1 & H2 & H3). rewrite Hp in H1. injection H1 as ->. split; [discriminate|].
      constructor; [apply Q3; eapply nth_error_In; eauto|]. apply Forall_forall. intros x Hx. apply In_nth_error in Hx as (s & Hx).
      assert (s < length cells) by (apply nth_error_Some; congruence).
      destruct (H3 s ltac:(lia)) as (c & ch & nm & _ & _ & Hch & Hn & Hsh). rewrite Hx in Hn. injection Hn as <-.
      eapply shown_free; eauto. apply Q1. eapply nth_error_In; eauto.
    + apply nth_error_None in E. assert (p < length rows) by (apply nth_error_Some; congruence). lia.
Qed.
