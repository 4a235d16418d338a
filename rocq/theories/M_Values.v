(** Scripts that keep parts of constraints in variables: [let a = c.slot;
    let e = (a == s); ... +constraint(e)].  M_Script has only constraints that are
    built and added by one statement. *)
From Verif Require Import Base M_Data M_Names M_Build M_Script.
From Coq Require Import String.
Notation length := Datatypes.length.
Notation get := Base.get.

(** A value a script can hold: an attribute ([__cexpAccessor]) or a constraint
    ([__cexp]); the types registered at /repo/src/input/rhai_interface.rs:68-69. *)
Inductive value := VAcc (a : accessor) | VExpr (e : expr).

(** One side of a comparison: written out, or the [k]-th value the script kept;
    an argument of the functions at /repo/src/input/rhai_interface.rs:296-366. *)
Inductive side := Fresh (x : operand) | Kept (k : nat).

(** A statement: a call of M_Script; [let v = c.slot]; [let v = (l rel r)] (with or
    without [constraint(..)] around it, which is the identity: line 160);
    [+v] / [add(v)] (/repo/src/input/rhai_interface.rs:146-160, 162-183). *)
Inductive stmt :=
| SCall (x : op)
| SAccess (x : operand)
| SBuild (l : side) (r : rel_kind) (rt : side)
| SAdd (k : nat).

(** The Rust type of a side: an attribute, an object reference, an [i64]
    (the parameters at /repo/src/input/rhai_interface.rs:296-366). *)
Inductive side_type := TyAttr | TyObject | TyInt.
(** The getters [choices], [size], [slot], [choosers] (and the functions [slot],
    [choosers]) return attributes, /repo/src/input/rhai_interface.rs:162-178. *)
Definition operand_type (x : operand) : side_type :=
  match x with
  | OpSlot _ | OpChoice _ | OpChooser _ => TyObject
  | OpInt _ => TyInt
  | _ => TyAttr
  end.
(** The type of what a variable holds; a constraint is no operand
    (/repo/src/input/rhai_interface.rs:296-366 has no such parameter). *)
Definition type_of (vs : list value) (s : side) : option side_type :=
  match s with
  | Fresh x => Some (operand_type x)
  | Kept k => match nth_error vs k with Some (VAcc _) => Some TyAttr | _ => None end
  end.
(** Is there an overload? /repo/src/input/rhai_interface.rs:296-345
    [register_relation] (attribute with attribute, object or integer, either way
    round) and 347-366 [register_contains] (attribute with object). *)
Definition overload (r : rel_kind) (l rt : side_type) : bool :=
  match r with
  | RContains | RNotContains =>
      match l, rt with TyAttr, TyObject => true | _, _ => false end
  | _ => match l, rt with TyAttr, _ | _, TyAttr => true | _, _ => false end
  end.
(** The accessor a side denotes: /repo/src/input/rhai_interface.rs:801-973 for what
    is written out; a kept one is what it was when it was kept. *)
Definition eval_side (st : rstate) (vs : list value) (s : side) : outcome accessor :=
  match s with
  | Fresh x => eval_operand st x
  | Kept k => match nth_error vs k with Some (VAcc a) => Ok a | _ => Err "Function not found" end
  end.
(** [l rel r]: the overload is chosen, the sides are turned into accessors
    ([slot_to_accessor] etc., /repo/src/input/rhai_interface.rs:801-835) and put
    together by [build_expression], 367-378.  Without an overload the engine finds no
    function (or, for [==] and [!=], answers with a truth value, for which there is
    neither [constraint] nor [+]): an error either way, whose text is not modelled. *)
Definition build (st : rstate) (vs : list value) (l : side) (r : rel_kind) (rt : side) : outcome expr :=
  match type_of vs l, type_of vs rt with
  | Some tl, Some tr =>
      if overload r tl tr then
        let* a := eval_side st vs l in
        let* b := eval_side st vs rt in
        Ok (mkE a r b)
      else Err "Function not found"
  | _, _ => Err "Function not found"
  end.
(** A statement whose result is kept: [let v = ..] appends it to the values of the
    script (the getters and operators at /repo/src/input/rhai_interface.rs:162-192). *)
Definition keep_value {F A} (w : world F) (vs : list value) (mk : A -> value) (r : outcome A)
  : outcome (option handle) * world F * list value :=
  match r with
  | Ok a => (Ok None, w, vs ++ [mk a])
  | Err m => (Err m, w, vs)
  | Panic => (Panic, w, vs)
  end.
(** One statement (/repo/src/input/rhai_interface.rs:71-247; [register_constraint]
    605-613; a constraint in place is built and added). *)
Definition exec_stmt {F} (pr : profile) (pf : string -> option F) (w : world F) (vs : list value) (x : stmt)
  : outcome (option handle) * world F * list value :=
  match x with
  | SCall (OpConstrain l r rt) =>
      match build (w_state w) vs (Fresh l) r (Fresh rt) with
      | Ok e => (Ok None, mkWorld (with_expr (w_state w) e) (w_opts w), vs)
      | Err m => (Err m, w, vs)
      | Panic => (Panic, w, vs)
      end
  | SCall c => (exec pr pf w c, vs)
  | SAccess a =>
      match operand_type a with
      | TyAttr => keep_value w vs VAcc (eval_operand (w_state w) a)
      | _ => (Err "Unknown property", w, vs)
      end
  | SBuild l r rt => keep_value w vs VExpr (build (w_state w) vs l r rt)
  | SAdd k =>
      match nth_error vs k with
      | Some (VExpr e) => (Ok None, mkWorld (with_expr (w_state w) e) (w_opts w), vs)
      | _ => (Err "Function not found", w, vs)
      end
  end.
(** What the script did: each statement and its result
    (the engine runs the script at /repo/src/input/input_reader.rs:66-90). *)
Definition vevent : Type := stmt * outcome (option handle).
(** /repo/src/input/input_reader.rs:66-90: the statements in the order the engine runs them. *)
Fixpoint exec_stmts {F} (pr : profile) (pf : string -> option F) (w : world F) (vs : list value) (xs : list stmt)
  : list vevent * world F :=
  match xs with
  | [] => ([], w)
  | x :: t => let '(r, w', vs') := exec_stmt pr pf w vs x in
              let (tr, w2) := exec_stmts pr pf w' vs' t in ((x, r) :: tr, w2)
  end.
(** Did the statement unwind? (/repo/src/input/input_reader.rs:66-90 has no handler.) *)
Definition vpanicked (e : vevent) : bool := match snd e with Panic => true | _ => false end.
(** /repo/src/input/input_reader.rs:66-114 [read_input] on a new reader (35-58), then
    179-184 [effective_options], as M_Script.read_script. *)
Definition read_stmts {F} (pr : profile) (pf : string -> option F) (o : settings F)
    (xs : list stmt) (fail : option string) : outcome input_data * settings F :=
  let (tr, w) := exec_stmts pr pf (mkWorld rs_empty o) [] xs in
  if existsb vpanicked tr then (Panic, w_opts w) else
  (match fail with
   | Some m => Err m
   | None => let* r := to_reader (w_state w) in read_input pr (has_unused (w_state w)) r
   end, w_opts w).
