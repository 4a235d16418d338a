(** Property theorems about CSV files: C74. *)
From Verif Require Import Base M_Csv.
From Coq Require Import String.
Import ListNotations.
Notation length := Datatypes.length.
Open Scope string_scope.
Open Scope list_scope.

(** ** C74: a CSV file that is read without an error is complete and in order. *)
Lemma collect_ok records : forall rows r, collect records rows = Ok r <-> exists t, r = rows ++ t /\ records = map inr t.
Proof.
  induction records as [|[m|x] records IH]; intros rows r; cbn [collect].
  - split; [intros H; injection H as <-; exists []; rewrite app_nil_r; auto|]. intros (t & -> & H). destruct t; [|discriminate]. rewrite app_nil_r. auto.
  - split; [discriminate|]. intros (t & _ & H). destruct t; discriminate.
  - rewrite IH. split.
    + intros (t & -> & ->). exists (x :: t). rewrite <- app_assoc. auto.
    + intros (t & -> & H). destruct t as [|y t]; [discriminate|]. injection H as -> ->. exists t. rewrite <- app_assoc. auto.
Qed.
Lemma collect_total records : forall rows, collect records rows <> Panic.
Proof. induction records as [|[m|x] records IH]; intros rows; cbn [collect]; try discriminate. apply IH. Qed.
(** The first unreadable record decides the error. *)
Lemma collect_err records : forall rows m, collect records rows = Err m <-> exists good rest, records = map inr good ++ inl m :: rest.
Proof.
  induction records as [|[m0|x] records IH]; intros rows m; cbn [collect].
  - split; [discriminate|]. intros (g & r & H). destruct g; discriminate.
  - split; [intros H; injection H as <-; exists [], records; auto|]. intros (g & r & H). destruct g; [|discriminate]. injection H as -> _. auto.
  - rewrite IH. split.
    + intros (g & r & ->). exists (x :: g), r. auto.
    + intros (g & r & H). destruct g as [|y g]; [discriminate|]. injection H as _ ->. eauto.
Qed.

Theorem C74_csv_read_completely :
  forall (lib : library) (file : string) (sep : char) (rows : list (list string)),
    (read_csv_char lib file sep = Ok rows <-> (sep <= 255)%N /\ lib file sep = inr (map inr rows)) /\
    (* any failure is an error of the script, naming the first cause *)
    read_csv_char lib file sep <> Panic /\
    (forall m, read_csv_char lib file sep = Err m ->
       ((255 < sep)%N /\ m = "CSV separator must fit in one byte.") \/ lib file sep = inl m \/
       exists good rest, lib file sep = inr (map inr good ++ inl m :: rest)).
Proof.
  intros lib file sep rows. unfold read_csv_char, read_file_csv. destruct (N.ltb_spec 255 sep) as [H|H].
  - split; [split; [discriminate|intros [H' _]; lia]|]. split; [discriminate|]. intros m E. injection E as <-. left. auto.
  - destruct (lib file sep) as [m|records] eqn:E.
    + split; [split; [discriminate|intros [_ H']; discriminate]|]. split; [discriminate|]. intros m' E'. injection E' as <-. auto.
    + split; [|split; [apply collect_total|]].
      * rewrite collect_ok. split; [intros (t & -> & ->); auto|]. intros [_ H']. injection H' as ->. exists rows. auto.
      * intros m E'. apply collect_err in E' as (g & r & ->). eauto.
Qed.
Print Assumptions C74_csv_read_completely.

(** Without a separator (or with an empty text) the separator is a comma; of a
    longer text the first character counts. *)
Theorem C74_separator :
  forall (lib : library) (file : string) (c : char) (rest : list char),
    read_csv1 lib file = read_csv_char lib file 44%N /\
    read_csv_text lib file [] = read_csv_char lib file 44%N /\
    read_csv_text lib file (c :: rest) = read_csv_char lib file c.
Proof. intros. repeat split. Qed.
Print Assumptions C74_separator.

(** Rows are counted from 0; row(i) rejects other numbers, [i] yields an empty row. *)
Theorem C74_rows :
  forall (rows : list (list string)) (i : Z),
    csv_rows rows = rows /\
    ((0 <= i < Z.of_nat (length rows))%Z ->
       csv_row rows i = Ok (nth (Z.to_nat i) rows []) /\ csv_index rows i = nth (Z.to_nat i) rows []) /\
    (~ (0 <= i < Z.of_nat (length rows))%Z -> (exists m, csv_row rows i = Err m) /\ csv_index rows i = []).
Proof.
  intros rows i. split; [reflexivity|]. unfold csv_row, csv_index. destruct (Z.ltb_spec i 0) as [H|H].
  - split; [lia|]. intros _. eauto.
  - destruct (nth_error rows (Z.to_nat i)) as [row|] eqn:E.
    + split; [intros _; rewrite (nth_error_nth _ _ [] E); auto|]. intros Hn. exfalso. apply Hn.
      assert (Z.to_nat i < length rows) by (apply nth_error_Some; congruence). lia.
    + apply nth_error_None in E. split; [lia|]. intros _. eauto.
Qed.
Print Assumptions C74_rows.

Definition lib74 : library := fun file sep => if String.eqb file "a.csv" then
  (if (sep =? 44)%N then inr [inr ["Ann"; "3"]; inr ["Bob"; "0"]] else inr [inr ["Ann,3"]; inl "unequal lengths"]) else inl "no such file".
Example C74_witness : read_csv1 lib74 "a.csv" = Ok [["Ann"; "3"]; ["Bob"; "0"]] /\ read_csv_text lib74 "a.csv" [59; 44]%N = Err "unequal lengths" /\
  read_csv_char lib74 "a.csv" 8364%N = Err msg_separator /\ csv_row [["Ann"; "3"]; ["Bob"; "0"]] 1 = Ok ["Bob"; "0"] /\ csv_index [["Ann"; "3"]] 1 = [].
Proof. repeat split. Qed.
