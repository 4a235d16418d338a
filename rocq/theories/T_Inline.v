(** Property theorems about the options: C91 with the inline forms of the command line
    (--name=value, -nVALUE, -n=VALUE, joined switches).  [F] is f64, [pf] its parser,
    [three] is 3.0 and [cores] the number of processors. *)
From Verif Require Import Base.
From Verif Require Import M_Script Spec_Script P_Script1 M_Args Spec_Args P_Args M_Inline Spec_Inline P_Inline.
From Verif Require T_Args.
From Coq Require Import String Ascii.
Notation length := Datatypes.length.
Notation get := Base.get.
Open Scope string_scope.
Open Scope list_scope.

(** ** C91: the command line accepts just the words that say options (in any of the
    forms) of which none but [--input] is given twice and whose values can be read;
    the options are then those of the documented defaults changed by what was said. *)
Theorem C91_command_line_forms :
  forall (F : Type) (pr : profile) (pf : string -> option F) (three : F) (cores : N) (words : list string) (o : settings F),
    let fl v x := pf v = Some x in let tm v x := parse_time pr v = Ok x in
    options_parse_inline pr pf three cores words = Ok o <->
    exists l, said words l /\ once l /\ readable fl tm (numeral u32_max) l /\
      in_effect fl tm (numeral u32_max) l (mkSettings [] None false three 60%Z 3%Z false false cores 12%N false) o.
Proof.
  intros F pr pf three cores words o fl tm.
  assert (V : forall A (p : string -> option A) v y, value_parser p v = Ok y <-> p v = Some y).
  { intros A p v y. unfold value_parser. destruct (p v); split; congruence. }
  assert (Vu : forall v y, value_parser parse_u32 v = Ok y <-> numeral u32_max v y) by (intros v y; rewrite V; apply parse_unsigned_ok).
  assert (G : forall m e t c j n, once (map item m) ->
    valued m FExp (value_parser pf) (Ok three) = Ok e -> valued m FTimeout (parse_time pr) (Ok 60%Z) = Ok t -> valued m FCsTimeout (parse_time pr) (Ok 3%Z) = Ok c ->
    valued m FThreads (value_parser parse_u32) (Ok cores) = Ok j -> valued m FNeighbors (value_parser parse_u32) (Ok 12%N) = Ok n ->
    in_effect fl tm (numeral u32_max) (map item m) (mkSettings [] None false three 60%Z 3%Z false false cores 12%N false)
      (mkSettings (found m FInput) (match found m FOutput with [] => None | v :: _ => Some v end) (flagged m FAny) e t c
                     (flagged m FNoCs) (flagged m FNoCsSimp) j n (flagged m FGreedy)) /\ readable fl tm (numeral u32_max) (map item m)).
  { intros m e t c j n HO He Ht Hc Hj Hn.
    assert (S1 := once_setting fl m FExp _ _ three e HO ltac:(discriminate) (fun v y => proj1 (V _ pf v y)) eq_refl He).
    assert (S2 := once_setting tm m FTimeout _ _ 60%Z t HO ltac:(discriminate) (fun v y K => K) eq_refl Ht).
    assert (S3 := once_setting tm m FCsTimeout _ _ 3%Z c HO ltac:(discriminate) (fun v y K => K) eq_refl Hc).
    assert (S4 := once_setting (numeral u32_max) m FThreads _ _ cores j HO ltac:(discriminate) (fun v y => proj1 (Vu v y)) eq_refl Hj).
    assert (S5 := once_setting (numeral u32_max) m FNeighbors _ _ 12%N n HO ltac:(discriminate) (fun v y => proj1 (Vu v y)) eq_refl Hn).
    split.
    - split; cbn [s_inputs s_output s_any s_pref_exp s_timeout s_cs_timeout s_no_cs s_no_cs_simp s_threads s_max_neighbors s_greedy];
        auto; try apply (flagged_switch m FAny); try apply (flagged_switch m FNoCs); try apply (flagged_switch m FNoCsSimp); try apply (flagged_switch m FGreedy).
      + exists (found m FInput). split; [apply found_inputs|reflexivity].
      + destruct (found m FOutput) as [|v r] eqn:E.
        * right. split; [apply (found_nil m FOutput); exact E|reflexivity].
        * left. exists v. split; [|reflexivity]. apply once_last; [exact HO|discriminate|]. exact (proj1 (found_cons _ _ _ _ E)).
    - assert (R : forall A (rd : string -> A -> Prop) k x0 x v, k <> KInput -> setting rd (map item m) k x0 x -> In (k, v) (map item m) -> exists y, rd v y).
      { intros A rd k x0 x v Hk [(v' & L & K)|[Hu _]] Hi; [|destruct (Hu v Hi)]. exists x. rewrite (last_told_fun _ _ _ _ (once_last _ _ _ HO Hk Hi) L). exact K. }
      intros k v Hi. destruct k; try exact I.
      + exact (R _ _ KExp _ _ v ltac:(discriminate) S1 Hi).
      + exact (R _ _ KTimeout _ _ v ltac:(discriminate) S2 Hi).
      + exact (R _ _ KCsTimeout _ _ v ltac:(discriminate) S3 Hi).
      + exact (R _ _ KThreads _ _ v ltac:(discriminate) S4 Hi).
      + exact (R _ _ KNeighbors _ _ v ltac:(discriminate) S5 Hi). }
  unfold options_parse_inline.
  replace (parse_time pr "60s") with (@Ok Z 60%Z) by (destruct pr; reflexivity). replace (parse_time pr "3s") with (@Ok Z 3%Z) by (destruct pr; reflexivity).
  split.
  - intros H. destruct (clap_items words) as [m|] eqn:Em; [|discriminate]. apply (items_ok _ _ _ (le_n _)) in Em.
    destruct (once_b m) eqn:Eo; [|discriminate]. cbn [negb] in H. apply once_b_ok in Eo.
    apply bind_ok in H as (e & He & H). apply bind_ok in H as (t & Ht & H). apply bind_ok in H as (c & Hc & H).
    apply bind_ok in H as (j & Hj & H). apply bind_ok in H as (n & Hn & H). injection H as <-.
    exists (map item m). split; [exact Em|]. split; [exact Eo|]. destruct (G m e t c j n) as [G1 G2]; auto.
  - intros (l & HS & HO & HR & HE). destruct (items_complete _ _ HS) as (m & Em & ->). rewrite Em. rewrite (proj2 (once_b_ok m) HO). cbn [negb].
    destruct (valued_total fl m FExp (value_parser pf) three (fun v Hi => HR KExp v Hi) (fun v y K => proj2 (V _ pf v y) K)) as [e He].
    destruct (valued_total tm m FTimeout (parse_time pr) 60%Z (fun v Hi => HR KTimeout v Hi) (fun v y K => K)) as [t Ht].
    destruct (valued_total tm m FCsTimeout (parse_time pr) 3%Z (fun v Hi => HR KCsTimeout v Hi) (fun v y K => K)) as [c Hc].
    destruct (valued_total (numeral u32_max) m FThreads (value_parser parse_u32) cores (fun v Hi => HR KThreads v Hi) (fun v y K => proj2 (Vu v y) K)) as [j Hj].
    destruct (valued_total (numeral u32_max) m FNeighbors (value_parser parse_u32) 12%N (fun v Hi => HR KNeighbors v Hi) (fun v y K => proj2 (Vu v y) K)) as [n Hn].
    rewrite He. cbn [bind]. rewrite Ht. cbn [bind]. rewrite Hc. cbn [bind]. rewrite Hj. cbn [bind]. rewrite Hn. cbn [bind]. f_equal.
    eapply (in_effect_fun fl tm (numeral u32_max));
      [intros v a b; apply T_Args.pf_fun|intros v a b; apply T_Args.time_fun|intros v a b; apply T_Args.numeral_fun| |exact HE].
    apply (G m e t c j n); auto.
Qed.
Print Assumptions C91_command_line_forms.

(** Command lines that say the same options in the same order give the same options:
    the form does not matter. *)
Theorem C91_forms_are_equivalent :
  forall (F : Type) (pr : profile) (pf : string -> option F) (three : F) (cores : N) (words words' : list string) (l : list (key * string)) (o : settings F),
    said words l -> said words' l ->
    options_parse_inline pr pf three cores words = Ok o -> options_parse_inline pr pf three cores words' = Ok o.
Proof.
  intros F pr pf three cores words words' l o H H' HO. apply C91_command_line_forms in HO as (l2 & H2 & HR). apply C91_command_line_forms.
  exists l2. split; [|exact HR]. destruct (items_complete _ _ H) as (m & E & ->). destruct (items_complete _ _ H2) as (m2 & E2 & ->). congruence.
Qed.
Print Assumptions C91_forms_are_equivalent.

(** Names and values as separate words mean what they mean without the inline forms. *)
Theorem C91_inline_forms_change_nothing_else :
  forall (F : Type) (pr : profile) (pf : string -> option F) (three : F) (cores : N) (words : list string) (o : settings F),
    options_parse pr pf three cores words = Ok o -> options_parse_inline pr pf three cores words = Ok o.
Proof.
  intros F pr pf three cores words o H. apply T_Args.C91_script_and_command_line_agree in H as [H (l & HT & HO)].
  apply T_Args.C91_the_last_word_counts in H as (l' & HT' & HR & HE). rewrite <- (tells_fun _ _ HT _ HT') in *. clear l' HT'.
  apply C91_command_line_forms. exists l. split; [|split; [exact (proj1 HO)|split; [exact HR|exact HE]]]. destruct HO as [_ HO]. clear HR HE.
  induction HT as [|k w v ws l Hw Hk HT IH|k w ws l Hw Hk HT IH].
  - constructor.
  - apply sd_value; auto; [apply (HO k v); left; reflexivity|]. apply IH. intros k' v' Hi. apply (HO k' v'). right. exact Hi.
  - apply sd_switch; auto; [apply (HO k ""); left; reflexivity|]. apply IH. intros k' v' Hi. apply (HO k' v'). right. exact Hi.
Qed.
Print Assumptions C91_inline_forms_change_nothing_else.

(** -agt3m -o=out --input=x --threads 2 and its plain form. *)
Definition inline_words : list string := ["-agt3m"; "-o=out"; "--input=x"; "--threads"; "2"].
Definition plain_words : list string := ["-a"; "-g"; "--timeout"; "3m"; "--output"; "out"; "-i"; "x"; "-j"; "2"].
Definition inline_list : list (key * string) := [(KAny, ""); (KGreedy, ""); (KTimeout, "3m"); (KOutput, "out"); (KInput, "x"); (KThreads, "2")].
Example C91_inline_witness : said inline_words inline_list /\ said plain_words inline_list /\
  options_parse_inline Debug (fun _ : string => None) 3 4 inline_words = Ok (mkSettings ["x"] (Some "out") true 3 180%Z 3%Z false false 2%N 12%N true) /\
  options_parse_inline Debug (fun _ : string => None) 3 4 ["-a"; "--any"] = Err msg_usage /\
  options_parse_inline Debug (fun _ : string => None) 3 4 ["--any=yes"] = Err msg_usage /\
  options_parse_inline Debug (fun _ : string => None) 3 4 ["-ga-"] = Err msg_usage.
Proof.
  assert (HS : forall ws m, clap_items ws = Some m -> map item m = inline_list -> said ws inline_list).
  { intros ws m E <-. apply (items_ok _ _ _ (le_n _) E). }
  split; [eapply HS; vm_compute; reflexivity|]. split; [eapply HS; vm_compute; reflexivity|]. split; [vm_compute; reflexivity|]. split; [vm_compute; reflexivity|]. split; vm_compute; reflexivity.
Qed.
