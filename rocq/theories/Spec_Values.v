(** A script with kept values, written out: every constraint in place where it is
    added. *)
From Verif Require Import Base M_Data M_Build M_Script Spec_Script M_Values.
From Coq Require Import String.
Notation length := Datatypes.length.

(** What a variable stands for in the text of the script. *)
Inductive text := TAttr (x : operand) | TCon (l : operand) (r : rel_kind) (rt : operand).
(** A side, with variables replaced by what was written when they were set. *)
Definition spelt (vars : list text) (s : side) : option operand :=
  match s with
  | Fresh x => Some x
  | Kept k => match nth_error vars k with Some (TAttr x) => Some x | _ => None end
  end.
(** The calls of the script with every constraint written out where it is added, from
    its statements and their results; statements about constraints that failed, and
    values that are never used, are left out. *)
Fixpoint written_out (vars : list text) (tr : list vevent) : list op :=
  match tr with
  | [] => []
  | (SCall (OpConstrain l r rt), Err _) :: t => written_out vars t
  | (SCall x, _) :: t => x :: written_out vars t
  | (SAccess x, Ok _) :: t => written_out (vars ++ [TAttr x]) t
  | (SBuild l r rt, Ok _) :: t =>
      match spelt vars l, spelt vars rt with
      | Some a, Some b => written_out (vars ++ [TCon a r b]) t
      | _, _ => []
      end
  | (SAdd k, Ok _) :: t =>
      match nth_error vars k with
      | Some (TCon a r b) => OpConstrain a r b :: written_out vars t
      | _ => []
      end
  | _ :: t => written_out vars t
  end.

(** Scripts can only use handles they were given, and here rename nothing. *)
Definition side_handles (s : side) : list handle := match s with Fresh x => operand_handles x | Kept _ => [] end.
Definition stmt_uses (x : stmt) : list handle :=
  match x with
  | SCall c => uses c
  | SAccess a => operand_handles a
  | SBuild l _ rt => side_handles l ++ side_handles rt
  | SAdd _ => []
  end.
Definition vissued (tr : list vevent) : list handle := flat_map (fun e => returned (snd e)) tr.
Definition proper_stmts (tr : list vevent) : Prop :=
  forall t1 e t2, tr = t1 ++ e :: t2 -> incl (stmt_uses (fst e)) (vissued t1).
Definition no_renaming (xs : list stmt) : Prop := forall h n, ~ In (SCall (OpRename h n)) xs.

(** What can be compared with what: at least one side is an attribute ([s.choices],
    [s.size], [c.slot], [c.choosers], [p.choices]); [contains] and [contains_not] take
    an attribute and an object. *)
Definition attribute (x : operand) : Prop :=
  match x with OpSlot _ | OpChoice _ | OpChooser _ | OpInt _ => False | _ => True end.
Definition an_object (x : operand) : Prop :=
  match x with OpSlot _ | OpChoice _ | OpChooser _ => True | _ => False end.
Definition comparison (l : operand) (r : rel_kind) (rt : operand) : Prop :=
  match r with
  | RContains | RNotContains => attribute l /\ an_object rt
  | _ => attribute l \/ attribute rt
  end.
