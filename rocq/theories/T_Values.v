(** Property theorems C94: constraints kept in variables. *)
From Verif Require Import Base M_Data M_Names M_Build M_Script Spec_Script P_Script2 P_Script3 M_Values Spec_Values P_Values.
From Verif Require T_Script.
From Coq Require Import String.
Notation length := Datatypes.length.
Notation get := Base.get.
Open Scope string_scope.
Import ListNotations.
Open Scope list_scope.

(** ** C94.  A script may keep attributes and constraints in variables and add them
    later, any number of times: it is read exactly like the script in which every
    constraint is written out where it is added (a proper script without renames, so
    that everything proved about [read_script] applies); what is kept and never added
    has no effect. *)
Theorem C94_kept_or_in_place :
  forall (F : Type) (pr : profile) (pf : string -> option F) (o : settings F) (xs : list stmt) (fail : option string)
         (tr : list vevent) (w : world F),
    exec_stmts pr pf (mkWorld rs_empty o) [] xs = (tr, w) -> proper_stmts tr -> no_renaming xs ->
    let ys := written_out [] tr in
    read_stmts pr pf o xs fail = read_script pr pf o ys fail /\
    exec_all pr pf (mkWorld rs_empty o) ys = (fst (exec_all pr pf (mkWorld rs_empty o) ys), w) /\
    proper_trace (fst (exec_all pr pf (mkWorld rs_empty o) ys)) /\ no_renames ys.
Proof.
  intros F pr pf o xs fail tr w H HP HN ys.
  destruct (run_written pr pf xs (mkWorld rs_empty o) [] [] [] tr w H HN sinv_nil (Forall2_nil _) (Forall_nil _) HP) as (ptr & H1 & H2 & H3).
  fold ys in H1. rewrite H1. cbn [fst]. repeat split.
  - unfold read_stmts, read_script, read_with. cbn [w_opts]. rewrite H, H1, H3. destruct (existsb vpanicked tr); reflexivity.
  - exact H2.
  - eapply renames_kept; eauto.
Qed.
Print Assumptions C94_kept_or_in_place.

(** Two comparisons kept in variables, one of them added twice, one built from a kept
    attribute, one never added, one that does not exist. *)
Definition xs94 : list stmt :=
  map SCall (firstn 16 T_Script.xs0) ++
  [SAccess (OpChoiceSlotPart 0 1);
   SBuild (Kept 0) REq (Fresh (OpSlot 1));
   SBuild (Fresh (OpChooserChoices 0)) RContains (Fresh (OpChoice 1));
   SBuild (Fresh (OpSlot 0)) REq (Fresh (OpSlot 1));
   SBuild (Fresh (OpSlotSize 0)) RGt (Fresh (OpInt 7));
   SCall (OpConstrain (OpInt 1) RLt (OpInt 2));
   SAdd 1; SAdd 2; SAdd 0; SAdd 1].
Definition run94 := exec_stmts Debug T_Script.pf0 (mkWorld rs_empty T_Script.o0) [] xs94.
Fixpoint proper_stmts_b (seen : list handle) (tr : list vevent) : bool :=
  match tr with
  | [] => true
  | e :: t => forallb (fun h => existsb (handle_eqb h) seen) (stmt_uses (fst e)) && proper_stmts_b (seen ++ returned (snd e)) t
  end.
Lemma proper_stmts_b_ok tr : proper_stmts_b [] tr = true -> proper_stmts tr.
Proof.
  assert (G : forall tr seen, proper_stmts_b seen tr = true -> forall t1 e t2, tr = t1 ++ e :: t2 -> incl (stmt_uses (fst e)) (seen ++ vissued t1)).
  { induction tr0 as [|a t IH]; intros seen H t1 e t2 E; [destruct t1; discriminate|]. cbn [proper_stmts_b] in H. apply andb_true_iff in H as [Ha Ht].
    destruct t1 as [|b t1]; cbn [app] in E; injection E as <- E.
    - intros h Hh. rewrite forallb_forall in Ha. apply Ha, existsb_handle in Hh. apply in_or_app. auto.
    - specialize (IH _ Ht _ _ _ E). cbn [vissued flat_map]. rewrite app_assoc. exact IH. }
  intros H t1 e t2 E. exact (G _ _ H _ _ _ E).
Qed.
Example C94_witness :
  proper_stmts (fst run94) /\ no_renaming xs94 /\
  skipn 16 (written_out [] (fst run94)) =
    [OpConstrain (OpChoiceSlotPart 0 1) REq (OpSlot 1); OpConstrain (OpChooserChoices 0) RContains (OpChoice 1);
     OpConstrain (OpChoiceSlotPart 0 1) REq (OpSlot 1)] /\
  map (fun e => match snd e with Ok _ => true | _ => false end) (skipn 16 (fst run94)) =
    [true; true; true; false; true; false; true; true; false; true] /\
  exists d, fst (read_stmts Debug T_Script.pf0 T_Script.o0 xs94 None) = Ok d.
Proof.
  split; [apply proper_stmts_b_ok; vm_compute; reflexivity|].
  split; [intros h n Hin; vm_compute in Hin; repeat (destruct Hin as [Hin|Hin]; [discriminate|]); destruct Hin|].
  split; [vm_compute; reflexivity|]. split; [vm_compute; reflexivity|].
  exists (T_Script.value T_Input.d1 (fst (read_stmts Debug T_Script.pf0 T_Script.o0 xs94 None))). vm_compute. reflexivity.
Qed.
(** Without the hypothesis: a constraint kept before its slot is renamed refers to the
    old name, one written out afterwards to the new one. *)
Definition xs94r : list stmt :=
  map SCall (firstn 16 T_Script.xs0) ++
  [SBuild (Fresh (OpChoiceSlot 1)) REq (Fresh (OpSlot 1)); SCall (OpRename (HSlot 1) "Wednesday"); SAdd 0].
Example C94_renaming_matters :
  let tr := fst (exec_stmts Debug T_Script.pf0 (mkWorld rs_empty T_Script.o0) [] xs94r) in
  read_stmts Debug T_Script.pf0 T_Script.o0 xs94r None <> read_script Debug T_Script.pf0 T_Script.o0 (written_out [] tr) None.
Proof. vm_compute. discriminate. Qed.

(** A comparison for which there is none (two objects, two integers, an integer with an
    object; [contains] of anything but an attribute and an object) is an error that
    leaves everything as it is, and no constraint that is added is one. *)
Theorem C94_only_comparisons :
  forall (F : Type) (pr : profile) (pf : string -> option F) (o : settings F) (xs : list stmt) (tr : list vevent) (w : world F),
    exec_stmts pr pf (mkWorld rs_empty o) [] xs = (tr, w) ->
    (forall l r rt res, In (SCall (OpConstrain l r rt), res) tr -> ~ comparison l r rt -> exists m, res = Err m) /\
    (forall l r rt, In (OpConstrain l r rt) (written_out [] tr) -> comparison l r rt).
Proof.
  intros F pr pf o xs tr w H.
  assert (G : forall xs (w0 : world F) vs tr w, exec_stmts pr pf w0 vs xs = (tr, w) ->
            forall l r rt res, In (SCall (OpConstrain l r rt), res) tr -> ~ comparison l r rt -> exists m, res = Err m).
  { clear. induction xs as [|x xs IH]; intros w0 vs tr w H l r rt res Hin Hc; cbn [exec_stmts] in H; [injection H as <- <-; destruct Hin|].
    destruct (exec_stmt pr pf w0 vs x) as [[r0 w1] vs1] eqn:Ex. destruct (exec_stmts pr pf w1 vs1 xs) as [tr1 w2] eqn:Er. injection H as <- <-.
    destruct Hin as [E|Hin]; [|eauto]. injection E as -> ->. cbn [exec_stmt] in Ex. unfold build in Ex. cbn [type_of] in Ex.
    destruct (overload r (operand_type l) (operand_type rt)) eqn:Eo; [destruct (Hc (proj1 (overload_comparison _ _ _) Eo))|].
    injection Ex as <- <- <-. eauto. }
  split; [eapply G; eauto|]. intros l r rt Hin.
  assert (D : comparison l r rt \/ ~ comparison l r rt).
  { destruct (overload r (operand_type l) (operand_type rt)) eqn:Eo; [left|right; intros C; apply overload_comparison in C; congruence].
    apply overload_comparison; auto. }
  destruct D as [D|D]; auto. exfalso.
  destruct (only_comparisons pr pf _ _ _ _ _ _ H (Forall2_nil _) (Forall_nil _) _ _ _ Hin D) as (t1 & t2 & ->).
  destruct (G _ _ _ _ _ H l r rt Panic) as (m & Hm); [apply in_or_app; right; left; reflexivity|exact D|discriminate].
Qed.
Print Assumptions C94_only_comparisons.
Example C94_comparisons_witness :
  run94 = (fst run94, snd run94) /\
  In (SCall (OpConstrain (OpInt 1) RLt (OpInt 2)), Err "Function not found") (fst run94) /\ ~ comparison (OpInt 1) RLt (OpInt 2) /\
  In (OpConstrain (OpChooserChoices 0) RContains (OpChoice 1)) (written_out [] (fst run94)).
Proof. split; [destruct run94; reflexivity|]. split; [vm_compute; tauto|]. split; [cbn; tauto|]. vm_compute. tauto. Qed.
